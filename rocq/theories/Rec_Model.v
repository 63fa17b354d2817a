(** Recording of virtual function calls: src/api.cpp:236-294 (jit_record_checkpoint,
    jit_record_begin, jit_record_end), src/var.cpp:1068-1098 (jitc_var_call_input), 1369-1384
    (jitc_var_mark_side_effect), src/call.cpp:297-640 (jitc_var_call), 990-1096
    (jitc_var_call_analyze), src/call.h:164-180 (release of a call).

    Simplifications: of a variable only its type, size, operands, stamp and the facts that are
    tested are kept; operands include the further variables that jitc_var_call_analyze visits
    (arguments of nested calls, loop state, ...); one backend, JitFlag::Debug off;
    jitc_eval changes nothing but whether variables are dirty; a side effect
    recorded in a symbolic scope is a symbolic variable. *)
From Verif Require Import Base.
Local Open Scope N_scope.

(** ** Queues of side effects *)
Inductive eff :=
| Eff (h : nat)                      (* scatter etc. *)
| ECalls (insts : list (list eff)).  (* Nop node of a call (call.cpp:610-616), which owns the side effects of its instances *)
Record rstate := { r_queue : list eff; (* side_effects_symbolic *)
                   r_done : list eff;  (* side_effects *)
                   r_flag : bool;      (* JitFlag::SymbolicScope *)
                   r_names : list (option N) (* record_stack *) }.
Definition bit31 : N := 0x80000000.
Definition low31 : N := 0x7fffffff.
Definition with_queue (s : rstate) (q : list eff) : rstate := {| r_queue := q; r_done := r_done s; r_flag := r_flag s; r_names := r_names s |}.

(** api.cpp:238-243 *)
Definition checkpoint (s : rstate) : N :=
  let r := u32 (N.of_nat (length (r_queue s))) in
  if r_flag s then N.lor r bit31 else r.
Definition same_name (a b : option N) : bool := match a, b with Some x, Some y => x =? y | _, _ => false end.
(** api.cpp:245-266 *)
Definition record_begin (s : rstate) (name : option N) : N * rstate :=
  if Nat.ltb 1 (length (filter (same_name name) (r_names s))) then (0xffffffff, s)
  else (checkpoint s, {| r_queue := r_queue s; r_done := r_done s; r_flag := true; r_names := name :: r_names s |}).
(** api.cpp:268-294; the released side effects *)
Inductive ended := EndAbort | EndRaise (s : rstate) | EndOk (s : rstate) (released : list eff).
Definition record_end (s : rstate) (value : N) (cleanup : bool) : ended :=
  match r_names s with
  | [] => EndAbort
  | _ :: ns =>
      let s := {| r_queue := r_queue s; r_done := r_done s; r_flag := negb (N.land value bit31 =? 0); r_names := ns |} in
      let value := N.land value low31 in
      if cleanup then
        if N.of_nat (length (r_queue s)) <? value then EndRaise s
        else EndOk (with_queue s (firstn (N.to_nat value) (r_queue s))) (rev (skipn (N.to_nat value) (r_queue s)))
      else EndOk s []
  end.
(** var.cpp:1369-1384 *)
Definition mark_side_effect (s : rstate) (symbolic : bool) (e : eff) : rstate :=
  if symbolic then with_queue s (r_queue s ++ [e])
  else {| r_queue := r_queue s; r_done := r_done s ++ [e]; r_flag := r_flag s; r_names := r_names s |}.

(** ** Side effects in jitc_var_call, call.cpp:385-389, 455-464, 498-523, 589-630 *)
Inductive moved :=
| MFault                                  (* undefined behaviour *)
| MRaise (s : rstate) (released : list eff)
| MOk (s : rstate).
(** 498-515: None: side_effects[..] is read out of bounds *)
Fixpoint slices (c0 n : N) (cks : list N) : option bool :=
  match cks with
  | a :: (b :: _) as cks' =>
      if b <? a then Some false
      else if (a <? b) && (n <? sub32 b c0) then None
      else slices c0 n cks'
  | _ => Some true
  end.
(** Side effects of the instances: checkpoints[i], .., checkpoints[i + 1] - 1 *)
Fixpoint pieces (l : list eff) (offsets : list N) : list (list eff) :=
  match offsets with
  | a :: (b :: _) as offsets' => firstn (N.to_nat (b - a)) (skipn (N.to_nat a) l) :: pieces l offsets'
  | _ => []
  end.
(** [early]: an exception in 311-433; [late]: in 466-587 *)
Definition move_effects (s : rstate) (symbolic : bool) (cks : list N) (early late : bool) : moved :=
  match cks with
  | [] | [_] => MRaise s []
  | c0 :: _ =>
      let cn := last cks 0 in
      if early || negb (N.of_nat (length (r_queue s)) =? N.land cn low31) then MRaise s []
      else if N.land cn low31 <? N.land c0 low31 then MFault
      else
        let se := skipn (N.to_nat (N.land c0 low31)) (r_queue s) in
        let s := with_queue s (firstn (N.to_nat (N.land c0 low31)) (r_queue s)) in
        match slices c0 (N.of_nat (length se)) cks with
        | None => MFault
        | Some false => MRaise s se
        | Some true =>
            if late then MRaise s se
            else if sub32 cn c0 =? 0 then MOk s
            else MOk (mark_side_effect s symbolic (ECalls (pieces se (map (fun c => sub32 c c0) cks))))
        end
  end.

(** ** Programs that record calls *)
Inductive stmt :=
| SEff (h : nat)
| SRaise                                            (* the traced function raises *)
| SCall (name : option N) (insts : list (list stmt)) (early late : bool).
Inductive ran := RAbort | Ran (raised : bool) (s : rstate) (released : list eff).
Section Body.
Variable exec : stmt -> rstate -> ran.
Fixpoint exec_body (p : list stmt) (s : rstate) : ran :=
  match p with
  | [] => Ran false s []
  | c :: p =>
      match exec c s with
      | Ran false s r => match exec_body p s with Ran x s r' => Ran x s (r ++ r') | RAbort => RAbort end
      | o => o
      end
  end.
(** Checkpoints before each instance and after the last one *)
Fixpoint exec_insts (insts : list (list stmt)) (s : rstate) (cks : list N) (rel : list eff) : ran * list N :=
  let cks := cks ++ [checkpoint s] in
  match insts with
  | [] => (Ran false s rel, cks)
  | p :: insts =>
      match exec_body p s with
      | Ran false s r => exec_insts insts s cks (rel ++ r)
      | Ran true s r => (Ran true s (rel ++ r), cks)
      | RAbort => (RAbort, cks)
      end
  end.
Definition finish (s : rstate) (c : N) (raised : bool) (rel : list eff) : ran :=
  match record_end s c raised with
  | EndAbort => RAbort
  | EndRaise s => Ran true s rel
  | EndOk s r => Ran raised s (rel ++ r)
  end.
(** As in tests/vcall.cpp:76-146; when the depth of the recursion is exceeded, the caller
    raises an exception and does not end the recording *)
Definition exec_call (name : option N) (insts : list (list stmt)) (early late : bool) (s : rstate) : ran :=
  let symbolic := r_flag s in
  let '(c, s1) := record_begin s name in
  if c =? 0xffffffff then Ran true s []
  else
    match exec_insts insts s1 [] [] with
    | (Ran true s2 rel, _) => finish s2 c true rel
    | (Ran false s2 rel, cks) =>
        match move_effects s2 symbolic cks early late with
        | MFault => RAbort
        | MRaise s3 r => finish s3 c true (rel ++ r)
        | MOk s3 => finish s3 c false rel
        end
    | (RAbort, _) => RAbort
    end.
End Body.
Fixpoint exec (p : stmt) (s : rstate) : ran :=
  match p with
  | SEff h => Ran false (mark_side_effect s (r_flag s) (Eff h)) []
  | SRaise => Ran true s []
  | SCall name insts early late => exec_call exec name insts early late s
  end.

(** ** Variables *)
Definition TBool : N := 1.
Definition TUInt32 : N := 8.
Record var := { v_ty : N; v_size : N; v_lit : bool; v_capt : bool; (* evaluated or a pointer *)
                v_input : option nat; (* CallInput: dep[0] *)
                v_deps : list nat; v_scratch : N; v_dirty : bool }.
Definition store : Type := list var.
Definition set_scratch (st : store) (h : nat) (x : N) : store :=
  match nth_error st h with
  | Some v => set_nth h {| v_ty := v_ty v; v_size := v_size v; v_lit := v_lit v; v_capt := v_capt v; v_input := v_input v; v_deps := v_deps v;
                           v_scratch := x; v_dirty := v_dirty v |} st
  | None => st
  end.
(** var.cpp:1068-1098; [optimize]: JitFlag::OptimizeCalls *)
Definition call_input (optimize : bool) (st : store) (h : nat) : option (store * nat) :=
  let? v := nth_error st h in
  let new := if v_lit v && optimize
    then {| v_ty := v_ty v; v_size := 1; v_lit := true; v_capt := false; v_input := None; v_deps := []; v_scratch := v_size v; v_dirty := false |}
    else {| v_ty := v_ty v; v_size := 1; v_lit := false; v_capt := false; v_input := Some h; v_deps := [h]; v_scratch := 0; v_dirty := false |} in
  Some (st ++ [new], length st).

(** ** jitc_var_call_analyze *)
Inductive analyzed := AFault | ARaise | AOk (st : store) (slots : list nat).
Fixpoint analyze (fuel : nat) (stamp : N) (st : store) (slots : list nat) (h : nat) : analyzed :=
  match fuel with
  | O => AFault
  | S fuel =>
      match nth_error st h with
      | None => AFault
      | Some v =>
          if v_scratch v =? stamp then AOk st slots
          else
            let st := set_scratch st h stamp in
            match v_input v with
            | Some _ => AOk st slots
            | None =>
                if v_capt v && negb (v_size v =? 1) then ARaise
                else (fix deps (l : list nat) (st : store) (slots : list nat) : analyzed :=
                        match l with
                        | [] => AOk st slots
                        | d :: l => match analyze fuel stamp st slots d with AOk st slots => deps l st slots | o => o end
                        end) (v_deps v) st (if v_capt v then slots ++ [h] else slots)
            end
      end
  end.
Fixpoint analyze_all (fuel : nat) (stamp : N) (st : store) (slots : list nat) (hs : list nat) : analyzed :=
  match hs with
  | [] => AOk st slots
  | h :: hs => match analyze fuel stamp st slots h with AOk st slots => analyze_all fuel stamp st slots hs | o => o end
  end.
(** eval.cpp:93-100 *)
Definition new_gen (st : store) (gen : N) : store * N :=
  if gen =? 0x7fffffff then (map (fun v => {| v_ty := v_ty v; v_size := v_size v; v_lit := v_lit v; v_capt := v_capt v; v_input := v_input v; v_deps := v_deps v;
                                              v_scratch := 0; v_dirty := v_dirty v |}) st, 1)
  else (st, gen + 1).
(** 498-523 *)
Fixpoint analyze_insts (st : store) (gen : N) (insts : list (list nat)) : option (bool * store * N * list (list nat)) :=
  match insts with
  | [] => Some (false, st, gen, [])
  | hs :: insts =>
      let '(st, gen) := new_gen st gen in
      match analyze_all (S (length st)) (2 * gen) st [] hs with
      | AFault => None
      | ARaise => Some (true, st, gen, [])
      | AOk st slots => let? r := analyze_insts st gen insts in let '(x, st, gen, l) := r in Some (x, st, gen, slots :: l)
      end
  end.

(** ** Checks, sizes and results of jitc_var_call *)
Inductive inputs := IFault | IRaise | IOk (st : store) (size : N) (dirty : bool).
(** 347-371 *)
Fixpoint check_inputs (st : store) (size : N) (dirty : bool) (ins : list nat) : inputs :=
  match ins with
  | [] => IOk st size dirty
  | h :: ins =>
      match nth_error st h with
      | None => IFault
      | Some v =>
          let r := match v_input v with
                   | Some d => match nth_error st d with Some w => IOk st (N.max size (v_size w)) (dirty || v_dirty w) | None => IFault end
                   | None => if v_lit v then IOk (set_scratch st h 0) (N.max size (v_scratch v)) dirty else IRaise
                   end in
          match r with
          | IOk st size dirty => if v_size v =? 1 then check_inputs st size dirty ins else IRaise
          | r => r
          end
      end
  end.
(** 373-383; [os0]: outputs of the first instance *)
Fixpoint check_outs (st : store) (os0 os : list nat) : option bool :=
  match os0, os with
  | a :: os0, b :: os =>
      let? v0 := nth_error st a in let? v1 := nth_error st b in
      if (v_ty v0 =? v_ty v1) && (v_size v1 =? 1) then check_outs st os0 os else Some false
  | [], [] => Some true
  | _, _ => Some false (* 318: number of outputs *)
  end.
Fixpoint check_insts (st : store) (os0 : list nat) (oss : list (list nat)) : option bool :=
  match oss with
  | [] => Some true
  | os :: oss => let? b := check_outs st os0 os in if b then check_insts st os0 oss else Some false
  end.
Definition compat (size n : N) : bool := (n =? 1) || (n =? size).
(** Size of the mask that a call gets: jitc_var_mask_apply, var.cpp:2231-2270; [stack]: size of
    the topmost mask on the stack *)
Definition mask_size (stack : option N) (size : N) : N :=
  match stack with
  | Some n => if (size =? 1) || (n =? 1) || (n =? size) then N.max n size else size
  | None => size
  end.
(** Output: type, size, devirtualized *)
Definition out : Type := N * N * bool.
Definition same_handles (oss : list (list nat)) (o : nat) (h : nat) : bool :=
  forallb (fun os => match nth_error os o with Some h' => Nat.eqb h h' | None => false end) oss.
(** 556-587 *)
Fixpoint outputs (st : store) (optimize : bool) (size msize : N) (oss : list (list nat)) (o : nat) (os0 : list nat) : list out :=
  match os0 with
  | [] => []
  | h :: os0 =>
      match nth_error st h with
      | Some v => if same_handles oss o h && optimize && v_lit v then (v_ty v, N.max 1 msize, true) else (v_ty v, size, false)
      | None => (0, 0, false)
      end :: outputs st optimize size msize oss (S o) os0
  end.
Record call := { c_size : N;           (* of the Call node and its outputs *)
                 c_mask : N;           (* of its mask *)
                 c_outs : list out;
                 c_slots : list (list nat) }.
Inductive front := FFault | FRaise | FOk (st : store) (gen : N) (c : call).
(** [still]: variables that are dirty after jitc_eval; [ses]: side effects of the instances *)
Definition var_call (optimize : bool) (stack : option N) (still : nat -> bool) (st : store) (gen : N)
    (self mask : nat) (ins : list nat) (oss ses : list (list nat)) : front :=
  match oss with
  | [] => FRaise
  | os0 :: _ =>
      match nth_error st self, nth_error st mask with
      | Some sv, Some mv =>
          if negb (v_ty sv =? TUInt32) || negb (v_ty mv =? TBool) then FRaise
          else
            match check_inputs st (N.max (v_size sv) (v_size mv)) (v_dirty sv || v_dirty mv) ins with
            | IFault => FFault
            | IRaise => FRaise
            | IOk st size dirty =>
                match check_insts st os0 oss with
                | None => FFault
                | Some false => FRaise
                | Some true =>
                    (* 391-412 *)
                    if dirty && (still self || still mask || existsb (fun h => match nth_error st h with
                         | Some v => match v_input v with Some d => still d | None => false end | None => false end) ins) then FRaise
                    (* 424-426: sizes of self, mask and the null instance *)
                    else if negb (compat size (v_size sv)) || negb (compat size (v_size mv)) then FRaise
                    else
                      let msize := mask_size stack size in
                      match analyze_insts st gen (map (fun x => fst x ++ snd x) (combine oss ses)) with
                      | None => FFault
                      | Some (true, _, _, _) => FRaise
                      | Some (false, st, gen, slots) =>
                          FOk st gen {| c_size := size; c_mask := msize; c_outs := outputs st optimize size msize oss 0 os0; c_slots := slots |}
                      end
                end
            end
      | _, _ => FFault
      end
  end.
(** A kernel of the size of the call can be assembled, eval.cpp:422 *)
Definition assembles (st : store) (c : call) (self : nat) (ins : list nat) : bool :=
  match nth_error st self with Some v => compat (c_size c) (v_size v) | None => false end && compat (c_size c) (c_mask c) &&
  forallb (fun h => match nth_error st h with
    | Some v => match v_input v with
                | Some d => match nth_error st d with Some w => compat (c_size c) (v_size w) | None => false end
                | None => true
                end
    | None => false end) ins.
