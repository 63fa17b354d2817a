(** Labels, prefixes and callbacks of variables: src/var.cpp:364-478 (jitc_var_free),
    614-681 (jitc_lvn_drop, jitc_var_label, jitc_var_set_label), 725-870 (jitc_var_new),
    1340-1356 (jitc_var_set_callback), 1880-1926 (jitc_var_copy), 2193-2211
    (jitc_var_extra); src/var.cpp:3150-3212 (the groups of jit_var_graphviz);
    src/api.cpp:1064-1116 (jit_var_set_label); src/init.cpp:619-659
    (prefixes).

    Simplifications: one backend and thread, no symbolic variables, pending side effects
    or source locations; variable and record number 0 ("none") are [None], so that numbers
    start at 0 here; callbacks do not call back into the library, and only those of
    freed variables are modelled. *)
From Verif Require Import Base.
Local Open Scope N_scope.

(** C strings without the terminator *)
Definition str := list N.
Definition slash := 47. Definition newline := 10.

(** VarKind: Literal, evaluated, anything else.  [x_key]: all other fields that value
    numbering looks at. *)
Inductive kind := Lit | Node | Mem.
Record var := { x_key : N; x_kind : kind; x_deps : list nat; x_refs : N; x_extra : option nat }.
(** internal.h:394-406 *)
Record extra := { e_label : option str; e_cb : option N }.
Definition extra0 : extra := {| e_label := None; e_cb := None |}.
Definition vkey := (N * kind * list nat)%type.

Record state := {
  vars : list (option var);
  lvn : list (vkey * nat);            (* state.lvn_map *)
  extras : list extra;                (* state.extra *)
  unused : list nat;                  (* state.unused_extra, last entry first *)
  prefixes : list str;                (* prefix_stack, outermost first *)
  log : list (nat * N) }.             (* callback(index, 1, data) *)

Definition get (s : state) (i : nat) : option var :=
  match nth_error (vars s) i with Some (Some v) => Some v | _ => None end.
Definition set_vars (s : state) (l : list (option var)) : state :=
  {| vars := l; lvn := lvn s; extras := extras s; unused := unused s; prefixes := prefixes s; log := log s |}.
Definition set_lvn (s : state) (l : list (vkey * nat)) : state :=
  {| vars := vars s; lvn := l; extras := extras s; unused := unused s; prefixes := prefixes s; log := log s |}.
Definition set_extras (s : state) (l : list extra) (u : list nat) : state :=
  {| vars := vars s; lvn := lvn s; extras := l; unused := u; prefixes := prefixes s; log := log s |}.
Definition set_prefixes (s : state) (l : list str) : state :=
  {| vars := vars s; lvn := lvn s; extras := extras s; unused := unused s; prefixes := l; log := log s |}.
Definition set_log (s : state) (l : list (nat * N)) : state :=
  {| vars := vars s; lvn := lvn s; extras := extras s; unused := unused s; prefixes := prefixes s; log := l |}.
Definition put (s : state) (i : nat) (o : option var) : state := set_vars s (set_nth i o (vars s)).

Definition with_refs (v : var) (n : N) : var :=
  {| x_key := x_key v; x_kind := x_kind v; x_deps := x_deps v; x_refs := n; x_extra := x_extra v |}.
Definition with_extra (v : var) (e : option nat) : var :=
  {| x_key := x_key v; x_kind := x_kind v; x_deps := x_deps v; x_refs := x_refs v; x_extra := e |}.

(** ** Value numbering *)
Definition kind_eqb (a b : kind) : bool := match a, b with Lit, Lit | Node, Node | Mem, Mem => true | _, _ => false end.
Fixpoint deps_eqb (a b : list nat) : bool :=
  match a, b with [], [] => true | x :: a, y :: b => Nat.eqb x y && deps_eqb a b | _, _ => false end.
Definition vkey_eqb (a b : vkey) : bool :=
  let '(k, d, l) := a in let '(k', d', l') := b in (k =? k') && kind_eqb d d' && deps_eqb l l'.
Definition key_of (v : var) : vkey := (x_key v, x_kind v, x_deps v).
Definition lvn_find (s : state) (k : vkey) : option nat :=
  match find (fun e => vkey_eqb (fst e) k) (lvn s) with Some e => Some (snd e) | None => None end.
Definition lvn_drop (s : state) (i : nat) (v : var) : state :=
  set_lvn s (filter (fun e => negb (vkey_eqb (fst e) (key_of v) && Nat.eqb (snd e) i)) (lvn s)).

(** ** Records *)
(** var.cpp:2193-2211; the result is the number of the record *)
Definition var_extra (s : state) (i : nat) (v : var) : state * nat :=
  match x_extra v with
  | Some e => (s, e)
  | None =>
      match unused s with
      | e :: u => (put (set_extras s (set_nth e extra0 (extras s)) u) i (Some (with_extra v (Some e))), e)
      | [] => let e := length (extras s) in
              (put (set_extras s (extras s ++ [extra0]) []) i (Some (with_extra v (Some e))), e)
      end
  end.
Definition extra_at (s : state) (e : nat) : extra := nth e (extras s) extra0.
Definition write_extra (s : state) (e : nat) (x : extra) : state := set_extras s (set_nth e x (extras s)) (unused s).

(** ** Prefixes: init.cpp:619-659 *)
Definition prefix (s : state) : option str :=
  match prefixes s with [] => None | l => Some (concat (map (fun p => p ++ [slash]) l)) end.
Definition clean (t : str) : bool := forallb (fun c => negb ((c =? newline) || (c =? slash))) t.

(** ** Creating and releasing *)
Fixpoint first_free (l : list (option var)) : nat :=
  match l with
  | [] => 0
  | None :: _ => 0
  | Some _ :: r => S (first_free r)
  end.
Definition inc (s : state) (i : nat) : state :=
  match get s i with Some v => put s i (Some (with_refs v (x_refs v + 1))) | None => s end.
(** var.cpp:725-930; the caller has counted the references to [ds] *)
Definition var_new (s : state) (k : N) (d : kind) (ds : list nat) (disable_lvn : bool) : state * nat :=
  let merge := negb disable_lvn && negb (kind_eqb d Mem) in
  match (if merge then lvn_find s (k, d, ds) else None) with
  | Some i => (inc s i, i)
  | None =>
      let s := fold_left inc ds s in
      let i := first_free (vars s) in
      let v := {| x_key := k; x_kind := d; x_deps := ds; x_refs := 1; x_extra := None |} in
      let s := set_vars s (if Nat.ltb i (length (vars s)) then set_nth i (Some v) (vars s) else vars s ++ [Some v]) in
      let s := if merge then set_lvn s (((k, d, ds), i) :: lvn s) else s in
      match prefix s with
      | None => (s, i)
      | Some p => let '(s, e) := var_extra s i v in (write_extra s e {| e_label := Some p; e_cb := None |}, i)
      end
  end.

(** var.cpp:368-423: everything of a variable except for its dependencies *)
Definition drop (s : state) (i : nat) (v : var) : state :=
  let s := match x_kind v with Mem => s | _ => lvn_drop s i v end in
  let s := match x_extra v with
           | None => s
           | Some e =>
               let s := match e_cb (extra_at s e) with Some d => set_log s (log s ++ [(i, d)]) | None => s end in
               set_extras s (extras s) (e :: unused s)
           end in
  put s i None.
(** var.cpp:432-453: the references of a variable to others; the result are those that
    nobody refers to any longer.  [None]: "has no references" *)
Fixpoint dec_all (s : state) (ds : list nat) : option (state * list nat) :=
  match ds with
  | [] => Some (s, [])
  | i :: r =>
      match get s i with
      | None => None
      | Some v =>
          if x_refs v =? 0 then None else
          let s := put s i (Some (with_refs v (x_refs v - 1))) in
          match dec_all s r with
          | None => None
          | Some (s, l) => Some (s, if x_refs v =? 1 then i :: l else l)
          end
      end
  end.
(** var.cpp:368-478: the first of them is next, the others are put on a stack *)
Fixpoint free (fuel : nat) (s : state) (todo : list nat) : option state :=
  match todo with
  | [] => Some s
  | i :: w =>
      match fuel, get s i with
      | S f, Some v =>
          match dec_all (drop s i v) (x_deps v) with
          | None => None
          | Some (s, []) => free f s w
          | Some (s, z :: r) => free f s (z :: rev r ++ w)
          end
      | _, _ => None
      end
  end.
(** var.cpp:572-584 *)
Definition dec_ref (s : state) (i : nat) : option state :=
  match dec_all s [i] with
  | None => None
  | Some (s, z) => free (length (vars s)) s z
  end.

(** var.cpp:1880-1926; [bitcast] stands for the kind VarKind::Bitcast *)
Definition bitcast := 0.
Definition var_copy (s : state) (i : nat) (v : var) : state * nat :=
  match x_kind v with
  | Mem => var_new s (x_key v) Mem [] false
  | Lit => var_new s (x_key v) Lit [] true
  | Node => var_new s bitcast Node [i] true
  end.

(** ** Labels *)
(** var.cpp:646-681; [None]: an exception is raised *)
Definition set_label (s : state) (i : nat) (v : var) (t : option str) : option state :=
  let name := match t with Some t => t | None => [] end in
  if negb (clean name) then None else
  let '(s, e) := var_extra s i v in
  let l := match prefix s with
           | None => t
           | Some p => Some (p ++ name)
           end in
  Some (write_extra s e {| e_label := l; e_cb := e_cb (extra_at s e) |}).
(** strrchr and the text behind it *)
Fixpoint behind (t : str) : option str :=
  match t with
  | [] => None
  | c :: r => match behind r with Some x => Some x | None => if c =? slash then Some r else None end
  end.
(** var.cpp:632-644 *)
Definition label (s : state) (v : var) : option str :=
  match x_extra v with
  | None => None
  | Some e =>
      match e_label (extra_at s e) with
      | None => None
      | Some t => Some (match behind t with Some x => x | None => t end)
      end
  end.

(** var.cpp:3190-3212 (jit_var_graphviz): the subgraphs that a variable is drawn in *)
Fixpoint pieces (p t : str) : list str :=
  match t with
  | [] => []
  | c :: r => if c =? slash then p :: pieces [] r else pieces (p ++ [c]) r
  end.
Definition groups (s : state) (v : var) : list str :=
  match x_extra v with
  | None => []
  | Some e => match e_label (extra_at s e) with None => [] | Some t => pieces [] t end
  end.

(** api.cpp:1064-1091: the arguments.  [Many] has at least two components; [None]: a
    read behind the end of a string.  char is signed (x86-64, Apple). *)
Inductive args := NoArgs | One (t : option str) | Many (l : list str).
Definition schar (c : N) : Z := if c <? 128 then Z.of_N c else Z.of_N c - 256.
Definition isnum (t : str) : option bool :=
  match t with
  | [] => None
  | c :: r => Some ((48 <=? schar c)%Z || (schar (match r with [] => 0 | d :: _ => d end) <=? 57)%Z)
  end.
Fixpoint joined (first : bool) (l : list str) : option str :=
  match l with
  | [] => Some []
  | t :: r =>
      match isnum t, joined false r with
      | Some b, Some x =>
          Some ((if b then [91] ++ t ++ [93] else (if first then [] else [46]) ++ t) ++ x)
      | _, _ => None
      end
  end.
Definition text (a : args) : option (option str) :=
  match a with
  | NoArgs => Some None
  | One t => Some t
  | Many l => match joined true l with Some t => Some (Some t) | None => None end
  end.

(** ** Calls *)
Inductive op :=
  | New (k : N) (d : kind) (ds : list nat)
  | Inc (i : nat)
  | Dec (i : nat)
  | SetLabel (i : nat) (a : args)
  | Label (i : nat)
  | Groups (i : nat)
  | SetCallback (i : nat) (c : option N)
  | Push (t : str)
  | Pop
  | Prefix.
Inductive res := RVar (i : nat) | RText (t : option str) | RPath (l : list str) | RNone | RErr.
(** [Abort]: the process is terminated, or undefined behaviour *)
Inductive out := Ok (s : state) (r : res) | Abort.

Definition step (s : state) (o : op) : out :=
  match o with
  | New k d ds => let '(s, i) := var_new s k d ds false in Ok s (RVar i)
  | Inc i => match get s i with Some _ => Ok (inc s i) RNone | None => Abort end
  | Dec i => match dec_ref s i with Some s => Ok s RNone | None => Abort end
  | SetLabel i a =>
      match text a, get s i with
      | Some t, Some v =>
          (* api.cpp:1094-1108 *)
          if x_refs v =? 1 then
            match set_label s i v t with Some s => Ok (inc s i) (RVar i) | None => Ok s RErr end
          else
            let '(s, j) := var_copy s i v in
            match get s j with
            | None => Abort
            | Some w => match set_label s j w t with Some s => Ok s (RVar j) | None => Ok s RErr end
            end
      | _, _ => Abort
      end
  | Label i => match get s i with Some v => Ok s (RText (label s v)) | None => Abort end
  | Groups i => match get s i with Some v => Ok s (RPath (groups s v)) | None => Abort end
  | SetCallback i c =>
      match get s i with
      | None => Abort
      | Some v =>
          let '(s, e) := var_extra s i v in
          match c, e_cb (extra_at s e) with
          | Some _, Some _ => Abort
          | _, _ => Ok (write_extra s e {| e_label := e_label (extra_at s e); e_cb := c |}) RNone
          end
      end
  | Push t => if clean t then Ok (set_prefixes s (prefixes s ++ [t])) RNone else Ok s RErr
  | Pop => match prefixes s with [] => Ok s RErr | l => Ok (set_prefixes s (removelast l)) RNone end
  | Prefix => Ok s (RText (prefix s))
  end.
Fixpoint run (s : state) (l : list op) : option (state * list res) :=
  match l with
  | [] => Some (s, [])
  | o :: r =>
      match step s o with
      | Abort => None
      | Ok s x => match run s r with Some (s, t) => Some (s, x :: t) | None => None end
      end
  end.
Definition initial : state := {| vars := []; lvn := []; extras := []; unused := []; prefixes := []; log := [] |}.
