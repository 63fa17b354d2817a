(** C79: the instance variable of recorded calls *)
From Verif Require Import Base Slf_Model Slf_Spec Slf_Proofs.

(** After any history of legal operations: jit_var_self returns what was set last, jit_var_class
    returns the instance variable for that instance and literals for others, all references have
    the expected contents, and no variable is left without owner. *)
Theorem C79_histories l : served initial start l.
Proof. exact (histories l). Qed.

(** jit_var_self does not return a reference.  Passing its result back without a reference
    terminates the process, at once or after another instance was set, or it installs an unrelated
    variable that has the same index by then. *)
Theorem C79_borrowed_refuted :
  exists s v x, run initial [SetSelf 5 None 0] = Some s /\ self s = (v, Some x) /\
    set_self s v (Some x) 1 = None /\
    (exists s1, set_self s 7 None 1 = Some s1 /\ set_self s1 v (Some x) 2 = None) /\
    (exists s1 s2 s3, set_self s 7 None 1 = Some s1 /\ step s1 (New 0 42) = Some s2 /\ set_self s2 v (Some x) 2 = Some s3 /\
      self s3 = (v, Some x) /\ option_map v_what (vars s3 x) = Some (Data 42)).
Proof.
  eexists _, 5%N, 0. split; [ reflexivity |]. split; [ reflexivity |]. split; [ vm_compute; reflexivity |]. split.
  - eexists. split; [ reflexivity |]. vm_compute. reflexivity.
  - eexists _, _, _. split; [ reflexivity |]. split; [ reflexivity |]. split; [ reflexivity |]. split; vm_compute; reflexivity.
Qed.

Print Assumptions C79_histories.
Print Assumptions C79_borrowed_refuted.

(** ** Examples *)
Definition look (s : state) (x : option nat) : option (what * N) := let? i := x in let? v := vars s i in Some (v_what v, v_rc v).
Definition view (l : list op) :=
  option_map (fun s => (value s, look s (index s), map (look s) (refs s))) (run initial l).
(** The instance ID of the current instance becomes the instance variable; others are literals. *)
Example class_self : view [SetSelf 5 None 0; Class 5 1; Class 6 1; Class 0 2] =
  Some (5%N, Some (CallSelf, 2%N), [Some (CallSelf, 2%N); Some (Lit 6, 1%N); Some (Lit 0, 1%N)]).
Proof. vm_compute. reflexivity. Qed.
(** Null pointers are literals also when there is no instance. *)
Example class_null : view [Class 0 0; SetSelf 5 None 1; SetSelf 0 None 2; Class 5 2] =
  Some (0%N, None, [Some (Lit 0, 1%N); Some (Lit 5, 1%N)]).
Proof. vm_compute. reflexivity. Qed.
(** Nested calls: saved and restored as in scoped_set_self *)
Example nested : view [SetSelf 5 None 0; Save; SetSelf 7 None 1; Class 7 2; Class 5 2; SetSelf 5 (Some 0) 3; Drop 0; Class 5 3] =
  Some (5%N, Some (CallSelf, 2%N), [None; Some (CallSelf, 1%N); Some (Lit 5, 1%N); Some (CallSelf, 2%N)]).
Proof. vm_compute. reflexivity. Qed.
(** With a variable of the caller, set again while the caller owns it; it is released at the end. *)
Example given : view [New 0 3; SetSelf 5 (Some 0) 1; SetSelf 5 (Some 0) 1; Class 5 1; SetSelf 0 None 1; Drop 1] =
  Some (0%N, None, [Some (Data 3, 1%N); None]).
Proof. vm_compute. reflexivity. Qed.
(** The new instance variable may have the index of the released one. *)
Example reused : option_map self (run initial [SetSelf 5 None 0; SetSelf 7 None 0]) = Some (7%N, Some 0).
Proof. vm_compute. reflexivity. Qed.
