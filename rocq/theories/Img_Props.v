(** C75: machine code of LLVM kernels *)
From Verif Require Import Base Img_Model Img_Spec Img_Proofs.
Local Open Scope N_scope.

(** Every compilation in a history succeeds; the kernel holds exactly the code that LLVM
    produced, with sections at the distances that LLVM was told, aligned, zero in between;
    entry points and callables are those of the symbols. *)
Theorem C75_histories l : served initial l.
Proof. exact (served_ok l initial Good_initial). Qed.

(** A kernel that was written to disk and loaded at another address is the same code *)
Theorem C75_reload l q s L e ptr table m m' told k :
  (* [m]: after some compilations *)
  fold_left (fun o x => match o with
                        | Some m => match compile m (fst x) (snd x) with Done (m, _, _) => Some m | _ => None end
                        | None => None
                        end) l (Some initial) = Some m ->
  Forall (fun x => exists L e, legal (fst x) L e /\ system (fst x) e (snd x)) l ->
  legal q L e -> system q e s -> compile m q s = Done (m', told, k) -> addresses ptr table e (length (q_syms q)) ->
  exists k', kernel_load (kernel_write k) ptr table = Done k' /\ carries q L e k' /\ k_data k' = ptr.
Proof.
  intros F A. apply reload_ok. revert A F. generalize Good_initial. generalize initial.
  induction l as [|[q1 s1] l IH]; intros m0 G A F; cbn [fold_left] in F; [injection F as <-; exact G|].
  inversion A as [|? ? (L1 & e1 & LG & SY) A']; subst. cbn [fst snd] in *.
  destruct (compile_ok m0 q1 s1 L1 e1 G LG SY) as (m1 & t1 & k1 & p1 & E1 & _ & _ & _ & _ & _ & _ & _ & G1).
  rewrite E1 in F. exact (IH m1 G1 A' F).
Qed.

Theorem C75_disjoint l L e i j p s q t : Placed 0 l L e -> i <> j ->
  nth_error L i = Some (p, s) -> nth_error L j = Some (q, t) -> p + s <= q \/ q + t <= p.
Proof. exact (layout_disjoint l L e i j p s q t). Qed.

(** Code that does not fit is not always noticed: padding is cleared before the test *)
Definition sys (a ptr table : N) : env := {| e_heap := Some (a, fun _ => 0xcc); e_map := Some ptr; e_table := table |}.
Theorem C75_overflow_refuted :
  exists q, In (EAlloc 8 4096 false) (q_evs q) /\ inside [] (q_evs q) /\ q_syms q = [(0%nat, 0)] /\
    compile initial q (sys 0x10000 0x20000 0x30000) = UB.
Proof.
  exists {| q_len := 100; q_evs := [EAlloc 990 16 false; EAlloc 8 4096 false]; q_syms := [(0%nat, 0)] |}.
  cbn [q_evs q_syms inside]. repeat split; auto. cbn; auto.
Qed.

(** After a failed allocation, which raises an exception, the next kernel uses freed memory *)
Definition small : request :=
  {| q_len := 100; q_evs := [EAlloc 3 16 false; EStore 0 0 0x90; EStore 0 1 0x90; EStore 0 2 0xc3]; q_syms := [(0%nat, 0)] |}.
Definition large : request := {| q_len := 1000; q_evs := q_evs small; q_syms := q_syms small |}.
Theorem C75_dangling_refuted :
  exists m1 t1 k1 m2, compile initial small (sys 0x10000 0x20000 0x30000) = Done (m1, t1, k1) /\
    compile m1 large {| e_heap := None; e_map := Some 0x40000; e_table := 0x50000 |} = Raised m2 /\
    compile m2 {| q_len := 50; q_evs := q_evs small; q_syms := q_syms small |} (sys 0x60000 0x70000 0x80000) = UB /\
    compile m2 large (sys 0x60000 0x70000 0x80000) = UB.
Proof. eexists _, _, _, _. split; [vm_compute; reflexivity|]. split; [vm_compute; reflexivity|]. split; vm_compute; reflexivity. Qed.

(** 4 GiB of code: the kernel has another size than its memory *)
Theorem C75_size_refuted :
  exists q m t k, compile initial q (sys 0x10000 0x200000000 0x30000) = Done (m, t, k) /\ k_len k = 2 ^ 32 + 16 /\ k_size k = 16.
Proof.
  exists {| q_len := 2 ^ 30; q_evs := [EAlloc (2 ^ 32 + 16) 16 false]; q_syms := [(0%nat, 0)] |}.
  eexists _, _, _. split; [vm_compute; reflexivity|]. split; vm_compute; reflexivity.
Qed.

(** Alignment beyond pages is lost in the copy *)
Theorem C75_align_refuted :
  exists q m t k a, secs (q_evs q) = [(16, 8192)] /\ compile initial q (sys 0x10000 0x1000 0x30000) = Done (m, t, k) /\
    k_reloc k = [a] /\ q_syms q = [(0%nat, 0)] /\ a mod 8192 <> 0.
Proof.
  exists {| q_len := 100; q_evs := [EAlloc 16 8192 false]; q_syms := [(0%nat, 0)] |}.
  eexists _, _, _, _. split; [reflexivity|]. split; [vm_compute; reflexivity|]. split; [vm_compute; reflexivity|].
  split; [reflexivity|]. vm_compute. discriminate.
Qed.

Print Assumptions C75_histories.
Print Assumptions C75_reload.
Print Assumptions C75_disjoint.
Print Assumptions C75_overflow_refuted.
Print Assumptions C75_dangling_refuted.
Print Assumptions C75_size_refuted.
Print Assumptions C75_align_refuted.

(** A kernel with two callables (at 4 and 12 in its code) and the pointer @callables *)
Definition demo : request :=
  {| q_len := 30;
     q_evs := [EAlloc 21 16 false; EStore 0 0 1; EStore 0 4 2; EStore 0 12 3; EAlloc 16 8 false; EStore 1 8 77; EStore 0 0 4; EStore 1 0 78];
     q_syms := [(0%nat, 0); (1%nat, 8); (0%nat, 4); (0%nat, 12)] |}.
Definition look (o : out kernel) : list (option N) :=
  match o with
  | Done k => map (code k) [k_data k; k_data k + 4; k_data k + 12; k_data k + 22; k_data k + 24; k_data k + 40] ++
              map (callee k (k_data k + 32)) [1; 2; 3]%nat
  | _ => []
  end.
Definition compiled : out kernel :=
  match compile initial demo (sys 0x10000 0x20000 0x30000) with Done (_, _, k) => Done k | _ => Failed end.
Definition reloaded : out kernel :=
  match compiled with Done k => kernel_load (kernel_write k) 0x50000 0x60000 | _ => Failed end.
Example demo_compiled :
  look compiled = [Some 4; Some 2; Some 3; Some 0; Some 78; None; Some 0x20004; Some 0x2000c; None].
Proof. vm_compute. reflexivity. Qed.
Example demo_reloaded :
  look reloaded = [Some 4; Some 2; Some 3; Some 0; Some 78; None; Some 0x50004; Some 0x5000c; None].
Proof. vm_compute. reflexivity. Qed.
Example demo_legal : legal demo [(0, 21); (24, 16)] 40 /\ system demo 40 (sys 0x10000 0x20000 0x30000).
Proof.
  split.
  - unfold legal. split; [|split; [|split; [|split; [|split; [|split]]]]]; try (cbn; lia).
    + cbn [demo q_evs secs]. apply pl_cons; [lia|now exists 0|reflexivity|]. apply pl_cons; [discriminate|now exists 3|reflexivity|]. apply pl_nil.
    + cbn. repeat split; try (eexists; split; [reflexivity|lia]).
    + cbn. intros k off [[= <- <-]|[[= <- <-]|[[= <- <-]|[[= <- <-]|[]]]]]; (eexists _, _; split; [reflexivity|lia]).
    + intros k off [= <- <-]. eexists _, _. split; [reflexivity|lia].
  - split.
    + exists 0x10000, (fun _ => 0xcc). split; [reflexivity|]. split; [now exists 16|reflexivity].
    + exists 0x20000. split; [reflexivity|]. split; [now exists 32|]. split; reflexivity.
Qed.
(** A section that does not fit is noticed if its padding does *)
Example too_large :
  compile initial {| q_len := 1; q_evs := [EAlloc 100 16 false]; q_syms := [(0%nat, 0)] |} (sys 0x10000 0x20000 0x30000) = Failed.
Proof. reflexivity. Qed.
