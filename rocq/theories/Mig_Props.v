(** C77: migration of variables *)
From Verif Require Import Base Mig_Model Mig_Spec Mig_Proofs.

(** A legal call succeeds; the result has the elements of the variable (with all scatters before
    the call) in memory of its own, usable at the destination, and nothing else changes. *)
Theorem C77_migrated be s m v dst junk : sane s -> final be s = Some m -> legal be s v dst ->
  exists s' v', var_migrate be s v dst junk = Ok s' v' /\ migrated be s m v dst s' v'.
Proof. exact (migrate_ok be s m v dst junk). Qed.

Definition empty : state := {| mem := fun _ => None; next := 0; queue := [] |}.

(** Identical source and target: documented is that the same variable is returned. *)
Theorem C77_identity_refuted :
  exists s v s' v', v_con v = Mem 0 [] /\ mem s 0 = Some {| b_flavor := Cpu; b_own := true; b_data := [1; 2]%Z |} /\ sane s /\
    var_migrate LLVM s v (DBe LLVM) [] = Ok s' v' /\ v_con v' = Mem 1 [].
Proof.
  exists {| mem := upd (fun _ => None) 0 {| b_flavor := Cpu; b_own := true; b_data := [1; 2]%Z |}; next := 1; queue := [] |}.
  exists {| v_be := LLVM; v_len := 2; v_con := Mem 0 [] |}. eexists _, _.
  split; [ reflexivity |]. split; [ reflexivity |]. split.
  { split; cbn; [ contradiction |]. intros b x. unfold upd. destruct (Nat.eqb_spec b 0); [ lia | discriminate ]. }
  split; reflexivity.
Qed.

(** LLVM: a literal that was migrated to the host, then changed by a scatter, then migrated to
    LLVM: the host copies the memory before the kernel with the scatter has run. *)
Theorem C77_stale_refuted :
  exists s1 s2 v2 m b x, var_migrate LLVM empty {| v_be := LLVM; v_len := 2; v_con := Lit 0 |} DNone [7; 7]%Z =
      Ok s1 {| v_be := LLVM; v_len := 2; v_con := Mem 0 [] |} /\
    var_migrate LLVM s1 {| v_be := LLVM; v_len := 2; v_con := Mem 0 [(1, 5%Z)] |} (DBe LLVM) [7; 7]%Z = Ok s2 v2 /\
    final LLVM s2 = Some m /\ v_con v2 = Mem b [] /\ m b = Some x /\ b_data x = [0; 0]%Z /\
    option_map b_data (m 0) = Some [0; 5]%Z.
Proof. eexists _, _, _, _, 1, _. repeat (split; [ reflexivity |]). reflexivity. Qed.

(** A literal of LLVM is migrated to the GPU, and kernels of the result's backend cannot access
    it; an evaluated variable is rejected. *)
Theorem C77_literal_refuted :
  exists s' v' x, var_migrate LLVM empty {| v_be := LLVM; v_len := 2; v_con := Lit 3 |} (DBe GPU) [] = Ok s' v' /\
    v_be v' = LLVM /\ v_con v' = Mem 0 [] /\ mem s' 0 = Some x /\ kernel_ok LLVM (b_flavor x) = false /\
    var_migrate LLVM empty {| v_be := LLVM; v_len := 2; v_con := Expr [3; 3]%Z |} (DBe GPU) [] = Err.
Proof. eexists _, _, _. repeat (split; [ reflexivity |]). reflexivity. Qed.

Print Assumptions C77_migrated.
Print Assumptions C77_identity_refuted.
Print Assumptions C77_stale_refuted.
Print Assumptions C77_literal_refuted.

(** ** Examples *)
Definition view (be : backend) (r : result var) :=
  match r with
  | Ok s v => match v_con v, final be s with
              | Mem b _, Some m => Some (b, option_map b_flavor (m b), option_map b_data (m b), option_map b_data (m 0))
              | _, _ => None
              end
  | _ => None
  end.
Definition at0 (f : flavor) (own : bool) (q : list action) : state :=
  {| mem := upd (fun _ => None) 0 {| b_flavor := f; b_own := own; b_data := [1; 2; 3]%Z |}; next := 1; queue := q |}.
Definition v0 (be : backend) (p : list (nat * Z)) : var := {| v_be := be; v_len := 3; v_con := Mem 0 p |}.
(** A kernel that still runs, and a pending scatter *)
Example to_host : view GPU (var_migrate GPU (at0 Gpu true [APut 0 0 8]) (v0 GPU [(2, 9%Z)]) DNone [7]%Z) =
  Some (1, Some Shared, Some [8; 2; 9]%Z, Some [8; 2; 9]%Z).
Proof. vm_compute. reflexivity. Qed.
Example to_gpu : view GPU (var_migrate GPU (at0 Host true []) (v0 GPU []) (DBe GPU) [7]%Z) =
  Some (1, Some Gpu, Some [1; 2; 3]%Z, Some [1; 2; 3]%Z).
Proof. vm_compute. reflexivity. Qed.
Example llvm_foreign : view LLVM (var_migrate LLVM (at0 Host false []) (v0 LLVM [(0, 4%Z)]) DNone [7]%Z) =
  Some (1, Some Host, Some [4; 2; 3]%Z, Some [4; 2; 3]%Z).
Proof. vm_compute. reflexivity. Qed.
Example expression : view LLVM (var_migrate LLVM empty {| v_be := LLVM; v_len := 2; v_con := Expr [5; 6]%Z |} DNone [7]%Z) =
  Some (1, Some Cpu, Some [5; 6]%Z, Some [5; 6]%Z).
Proof. vm_compute. reflexivity. Qed.
Example rejected : var_migrate GPU (at0 Cpu true []) (v0 GPU []) (DBe GPU) [] = Err.
Proof. vm_compute. reflexivity. Qed.
(** The conditions hold for these *)
Example legal_to_host : sane (at0 Gpu true [APut 0 0 8]) /\ final GPU (at0 Gpu true [APut 0 0 8]) <> None /\
  legal GPU (at0 Gpu true [APut 0 0 8]) (v0 GPU [(2, 9%Z)]) DNone.
Proof.
  split; [| split ].
  - split; cbn.
    + intros a b [<- | []] [<- | []]. lia.
    + intros b x. unfold upd. destruct (Nat.eqb_spec b 0); [ lia | discriminate ].
  - discriminate.
  - split; [ reflexivity |]. split; [ now left |]. cbn. eexists. split; [ reflexivity |]. cbn.
    split; [ now right |]. split; [ now left | discriminate ].
Qed.
