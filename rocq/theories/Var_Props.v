(** C01, C02, C03, C05, C06, C07: the variable store. *)
From Verif Require Import Base FreeSlots_Model FreeSlots_Spec FreeSlots_Proofs Var_Model Var_Spec Var_Facts Var_Check.
Local Open Scope N_scope.

(** ** C01: reference counts *)

(** Nothing that a well-behaved client does makes the library abort. *)
Theorem C01_no_failure :
  forall s h o, reach s h -> allowed s h o -> exists s' r, step s o = Some (s', r).
Proof. exact no_failure. Qed.
Print Assumptions C01_no_failure.

(** Everything the client owns is live, and so is everything it depends on. *)
Theorem C01_held_live :
  forall s h i k, reach s h -> In i h -> path s i k -> live s k.
Proof. exact held_path_live. Qed.
Print Assumptions C01_held_live.

(** Nothing else is live. *)
Theorem C01_live_reachable :
  forall s h j, reach s h -> live s j -> exists i, In i h /\ path s i j.
Proof. exact live_reachable. Qed.
Print Assumptions C01_live_reachable.

(** The counts are the numbers of references. *)
Theorem C01_exact_counts :
  forall s h i v, reach s h -> live s i -> vget s i = Some v ->
  v_rc v = N.of_nat (count_occ N.eq_dec h i + uses s false i) /\ v_se v = N.of_nat (uses s true i).
Proof. exact exact_counts. Qed.
Print Assumptions C01_exact_counts.

(** A client that owns nothing leaves nothing behind: no variable, no memory,
    no table entry, and every slot can be used again. *)
Theorem C01_no_leak :
  forall s, reach s [] ->
  (forall i, ~ live s i) /\ heap s = [] /\ lvn s = [] /\
  (forall i, 0 < i < N.of_nat (length (vars s)) -> exists F, fs_rel (unused s) F /\ In i F).
Proof. exact all_dropped. Qed.
Print Assumptions C01_no_leak.

Definition env0 : env := mkEnv 0 true true.
Definition add_req (a b : N) : req := mkReq 20 2 7 4 0 [a; b; 0; 0] false false 0.
Definition st_of (os : list op) : st := match run st_init os with Some (s, _) => s | None => st_init end.
Definition outs_of (os : list op) : list out := match run st_init os with Some (_, r) => r | None => [] end.


(** A history with shared operands, a value numbering hit, an evaluation, a
    pending write and drops in the "wrong" order. *)
Definition hist1 : list op :=
  [OThread; OLiteral env0 2 7 5 4; OMemMap env0 2 7 4096 4 [10; 11; 12; 13];
   ONode env0 (add_req 1 2) false; ONode env0 (add_req 3 3) false; ONode env0 (add_req 1 2) false;
   ODec 1; ODec 2; ODec 3; OEval 4 8192 [30; 32; 34; 36]; OPointer env0 4 true false false].
Example C01_ex_outs :
  outs_of hist1 = [OUnit; OIndex 1; OIndex 2; OIndex 3; OIndex 4; OIndex 3; OUnit; OUnit; OUnit; OUnit; OIndex 5].
Proof. vm_compute. reflexivity. Qed.
Example C01_ex_reach : reach (st_of hist1) [5; 4; 3].
Proof. apply (client_held hist1). vm_compute. reflexivity. Qed.
Example C01_ex_live :
  map (fun v => (v_rc v, v_se v)) (vars (st_of hist1)) = [(0, 0); (1, 0); (1, 0); (1, 0); (1, 1); (1, 0)].
Proof. vm_compute. reflexivity. Qed.
(** ... and after dropping the rest nothing is left. *)
Definition hist2 : list op := hist1 ++ [ODec 4; ODec 3; ODec 5].
Example C01_ex_empty :
  reach (st_of hist2) [] /\ map (fun v => v_rc v) (vars (st_of hist2)) = [0; 0; 0; 0; 0; 0] /\ lvn (st_of hist2) = [].
Proof. split; [apply (client_held hist2)|]; vm_compute; auto. Qed.

(** Without the bound on pending side effects in [allowed], the claim is wrong:
    ref_count_se is a 16-bit field. After 65536 write pointers (value numbering
    disabled), dropping the handle destroys the memory region, although all
    these pointers still refer to it. *)
Theorem C01_side_effect_overflow_refuted : exists n s r,
  run st_init ([OThread; OMemMap env_off 2 7 4096 1 [7]] ++ repeat (OPointer env_off 1 true false true) n
               ++ [ODec 1]) = Some (s, r) /\
  live s 2 /\ operand s 2 1 /\ ~ live s 1 /\ heap s = [].
Proof. exists (N.to_nat (2 ^ 16)). apply se_overflow. apply N2Nat.id. Qed.
Print Assumptions C01_side_effect_overflow_refuted.

(** ** C02: weak references *)

(** A weak reference taken from a live variable resolves to it if the variable
    was live all the time since, and to nothing otherwise. *)
Theorem C02_weak_reference :
  forall s1 h1 i v l s2 h2,
  reach s1 h1 -> live s1 i -> vget s1 i = Some v -> exec s1 h1 l s2 h2 -> recycled i s1 l < 2 ^ 32 ->
  exists r, jitc_var_weak s2 i (v_counter v) = Some r /\
    (alive_in i l -> r = Some i) /\ (~ alive_in i l -> r = None).
Proof. exact weak_ok. Qed.
Print Assumptions C02_weak_reference.

(** The slot of an expired variable is used again: the old reference resolves
    to nothing, a new one to the new variable. *)
Example C02_ex :
  outs_of [OThread; OLiteral env0 2 7 5 1; OGetWeak 1; OResolve 1 0; ODec 1; OResolve 1 0;
           OLiteral env0 2 7 6 1; OResolve 1 0; OGetWeak 1; OResolve 1 1]
  = [OUnit; OIndex 1; OWeak 1 0; OResolved (Some 1); OUnit; OResolved None;
     OIndex 1; OResolved None; OWeak 1 1; OResolved (Some 1)].
Proof. vm_compute. reflexivity. Qed.

(** ** C03: value numbering *)

(** The variable that a request returns is what was requested; if it existed
    before, it was the same computation already then. *)
Theorem C03_merge_sound :
  forall s h e q dis s' i, reach s h -> allowed s h (ONode e q dis) ->
  step s (ONode e q dis) = Some (s', OIndex i) ->
  exists sc v, nth_error (tscope s) (e_tid e) = Some sc /\ vget s' i = Some v /\ same_computation v (requested q sc) /\
    (q_array q || q_coop q = true -> 0 < q_alen q -> v_alen v = q_alen q) /\
    (forall w, live s i -> vget s i = Some w -> same_computation w (requested q sc)).
Proof. exact merge_sound. Qed.
Print Assumptions C03_merge_sound.

(** Requesting the same again returns the existing variable, as long as it is
    alive, was not evaluated or resized, and the scope is the same. *)
Theorem C03_no_duplicates :
  forall s h e q s1 j l s2 h2 e2 sc,
  reach s h -> allowed s h (ONode e q false) -> step s (ONode e q false) = Some (s1, OIndex j) ->
  e_vn e = true -> q_type q <> T_Void ->
  exec s1 (j :: h) l s2 h2 -> alive_in j l -> untouched j l ->
  allowed s2 h2 (ONode e2 q false) -> e_vn e2 = true ->
  nth_error (tscope s2) (e_tid e2) = Some sc -> (forall v, vget s2 j = Some v -> v_scope v = sc) ->
  exists s3, step s2 (ONode e2 q false) = Some (s3, OIndex j).
Proof. exact no_duplicates. Qed.
Print Assumptions C03_no_duplicates.

(** Same operands and kind: merged. Different scope, evaluated, or different
    payload: not merged. *)
Example C03_ex :
  outs_of [OThread; OLiteral env0 2 7 5 4; ONode env0 (add_req 1 1) false; ONode env0 (add_req 1 1) false;
           ONewScope 0; ONode env0 (add_req 1 1) false; OSetScope 0 3; ONode env0 (add_req 1 1) false;
           OEval 2 4096 [10; 10; 10; 10]; ONode env0 (add_req 1 1) false;
           ONode (mkEnv 0 false true) (add_req 1 1) false]
  = [OUnit; OIndex 1; OIndex 2; OIndex 2; OVal 4; OIndex 3; OUnit; OIndex 2; OUnit; OIndex 4; OIndex 5].
Proof. vm_compute. reflexivity. Qed.

(** jitc_var_array_write replaces an operand of a node that is already in the
    value numbering table. The entry is not found when the node is destroyed
    and stays in the table, pointing to a dead variable. *)
Theorem C03_stale_entry_refuted : exists os s r k i,
  run st_init os = Some (s, r) /\ (forall j, ~ live s j) /\ In (k, i) (lvn s).
Proof.
  exists [OThread; OLiteral env0 2 7 5 4; ONode env0 (mkReq 100 2 7 4 0 [1; 1; 1; 0] true false 2) false;
          ONode env0 (mkReq 99 2 7 4 0 [0; 0; 0; 0] true false 2) false; OStoreDep 2 3; ODec 1; ODec 2].
  eexists _, _, _, 2. split; [vm_compute; reflexivity|]. split; [|cbn; left; reflexivity].
  intros j (Hj & v & E & H). unfold vget in E. cbn [vars] in E.
  destruct (N.to_nat j) as [|[|[|[|m]]]]; cbn in E; try (injection E as <-; destruct H as [H|H]; vm_compute in H; discriminate).
  destruct m; discriminate.
Qed.
Print Assumptions C03_stale_entry_refuted.

(** ** C05: copy-on-write *)

(** [remove1 i h]: all other references of the client (including further ones
    to [i] itself). None of their values changes, and the result is the old
    value with one element replaced. *)
Theorem C05_write_partial :
  forall s h e i off x p1 p2 junk s' r v,
  reach s h -> allowed s h (OWrite e i off x p1 p2 junk) -> vget s i = Some v -> v_retain v = false ->
  step s (OWrite e i off x p1 p2 junk) = Some (s', r) ->
  (forall f j, In j (remove1 i h) -> denote f s' j = denote f s j) /\
  ((r = ORaise /\ (forall f, denote f s' i = denote f s i) /\
      (v_size v <= off \/ elements s i junk = None \/ is_dirty v = true)) \/
   exists k c, r = OIndex k /\ off < v_size v /\ elements s i junk = Some c /\
     denote 1 s' k = VData (v_type v) (v_size v) (set_nth (N.to_nat off) (trunc (v_type v) x) c) /\
     (k = i \/ ~ live s k /\ forall f, denote f s' i = denote f s i)).
Proof. exact write_copy_on_write. Qed.
Print Assumptions C05_write_partial.

(** Reading returns the denoted elements. *)
Theorem C05_read :
  forall s h i off t n c, reach s h -> In i h -> denote 1 s i = VData t n c ->
  (forall v, vget s i = Some v -> is_dirty v = false) ->
  step s (ORead i off) = Some (s, let k := if n =? 1 then 0 else off in
                                  if k <? n then OVal (nth (N.to_nat k) c 0) else ORaise).
Proof. exact read_denotes. Qed.
Print Assumptions C05_read.

(** A shrunken array has the leading elements; nothing else changes. *)
Theorem C05_shrink :
  forall s h e i n p junk s' r t m c,
  reach s h -> allowed s h (OShrink e i n p junk) -> denote 1 s i = VData t m c -> 0 < n < m ->
  (forall v, vget s i = Some v -> is_dirty v = false) ->
  step s (OShrink e i n p junk) = Some (s', r) ->
  exists k, r = OIndex k /\ ~ live s k /\ denote 1 s' k = VData t n (firstn (N.to_nat n) c) /\
    forall f j, In j h -> denote f s' j = denote f s j.
Proof. exact shrink_value. Qed.
Print Assumptions C05_shrink.

(** Sole owner: in place. Shared, or with a shrunken view: a copy. *)
Example C05_ex :
  outs_of [OThread; OMemMap env0 2 7 4096 3 [10; 11; 12]; OWrite env0 1 1 99 8192 12288 [0; 0; 0];
           ODec 1; ORead 1 1; OShrink env0 1 2 0 [0; 0; 0]; OWrite env0 1 0 77 8192 12288 [0; 0; 0];
           ORead 1 0; ORead 2 0; ORead 3 0; ORead 3 1]
  = [OUnit; OIndex 1; OIndex 1; OUnit; OVal 99; OIndex 2; OIndex 3; OVal 10; OVal 10; OVal 77; OVal 99].
Proof. vm_compute. reflexivity. Qed.

(** Refuted for a write through the result of jit_var_shrink (a view that
    shares memory but is the sole reference to itself): the original array
    changes although the client still holds it. *)
Definition hist_view : list op :=
  [OThread; OMemMap env0 2 7 4096 3 [10; 11; 12]; OShrink env0 1 2 8192 [0; 0; 0]].
Theorem C05_write_view_refuted : exists s h o s' k,
  reach s h /\ allowed s h o /\ o = OWrite env0 2 0 77 8192 12288 [0; 0] /\ step s o = Some (s', OIndex k) /\
  In 1 (remove1 2 h) /\ step s (ORead 1 0) = Some (s, OVal 10) /\ step s' (ORead 1 0) = Some (s', OVal 77).
Proof.
  exists (st_of hist_view), [2; 1], (OWrite env0 2 0 77 8192 12288 [0; 0]). eexists _, _.
  split; [apply (client_held hist_view); vm_compute; reflexivity|].
  split; [apply allowed_b_ok; vm_compute; reflexivity|]. split; [reflexivity|].
  split; [vm_compute; reflexivity|]. split; [vm_compute; auto|]. split; vm_compute; reflexivity.
Qed.
Print Assumptions C05_write_view_refuted.

(** Refuted for jit_var_shrink of an uninitialised variable: the view keeps the
    (not evaluated) variable alive instead of the temporary memory region that
    it points into, which is released at once. *)
Theorem C05_shrink_undefined_refuted : exists s r v,
  run st_init [OThread; ONode env0 (mkReq K_Undefined 2 7 4 0 [0; 0; 0; 0] false false 0) false;
               OShrink env0 1 2 4096 [0; 0; 0; 0]] = Some (s, r) /\
  last r OUnit = OIndex 3 /\ live s 3 /\ vget s 3 = Some v /\ is_evaluated v = true /\ v_lit v = 4096 /\ heap s = [].
Proof.
  eexists _, _, _. split; [vm_compute; reflexivity|]. split; [reflexivity|].
  split; [|split; [vm_compute; reflexivity|repeat split; reflexivity]].
  split; [lia|]. eexists. split; [vm_compute; reflexivity|]. left. reflexivity.
Qed.
Print Assumptions C05_shrink_undefined_refuted.

(** ** C06: literals *)

(** Only the bytes of the type matter, and they are read back, whatever other
    operations follow. *)
Theorem C06_literal_reads_back :
  forall s h e b t x n s1 i l s2 h2 off,
  reach s h -> allowed s h (OLiteral e b t x n) -> 0 < n -> step s (OLiteral e b t x n) = Some (s1, OIndex i) ->
  exec s1 (i :: h) l s2 h2 -> alive_in i l -> untouched i l -> In i h2 -> off < n ->
  step s2 (ORead i off) = Some (s2, OVal (x mod 2 ^ (8 * type_size t))).
Proof. exact literal_reads_back. Qed.
Print Assumptions C06_literal_reads_back.

(** uint16_t with garbage above; merged with the same value without garbage. *)
Example C06_ex :
  outs_of [OThread; OLiteral env0 2 6 0xDEADBEEF 3; OLiteral env0 2 6 0xBEEF 3; OLiteral env0 2 10 0xFEDCBA9876543210 1;
           ORead 1 2; ORead 1 3; ORead 2 5]
  = [OUnit; OIndex 1; OIndex 1; OIndex 2; OVal 0xBEEF; ORaise; OVal 0xFEDCBA9876543210].
Proof. vm_compute. reflexivity. Qed.

(** ** C07: scopes *)

(** A new scope is larger than all scopes in use. If the counter overflows, the
    scopes in use are renumbered in the same order ([ro]); the reserved scopes
    and everything else about the variables stay. *)
Theorem C07_new_scope :
  forall s h t s' c, reach s h -> allowed s h (ONewScope t) -> step s (ONewScope t) = Some (s', OVal c) ->
  exists ro : N -> N,
    (forall x y, in_use s x -> in_use s y -> x < y -> ro x < ro y) /\
    (forall x, x < SCOPE_DYNAMIC -> ro x = x) /\
    (forall i v, live s i -> vget s i = Some v -> vget s' i = Some (set_vscope v (ro (v_scope v)))) /\
    tscope s' = set_nth t c (map ro (tscope s)) /\
    (forall x, in_use s x -> ro x < c) /\ c < 2 ^ 32 /\
    (sctr s <> 2 ^ 32 - 1 -> forall x, ro x = x).
Proof. exact new_scope. Qed.
Print Assumptions C07_new_scope.

(** Compaction with three scopes in use by variables and two threads. *)
Definition hist_scopes : list op :=
  [OThread; OThread; OLiteral env0 2 7 5 4; OAdvance 0 1000; OLiteral env0 2 7 5 4;
   OAdvance 0 (2 ^ 32 - 1500); OLiteral env0 2 7 5 4; OAdvance 0 600].
Example C07_ex :
  map v_scope (vars (st_of hist_scopes)) = [0; 3; 1004; 2 ^ 32 - 496] /\ tscope (st_of hist_scopes) = [2 ^ 32 - 1; 4] /\
  map v_scope (vars (st_of (hist_scopes ++ [ONewScope 0]))) = [0; 2; 4; 5] /\
  tscope (st_of (hist_scopes ++ [ONewScope 0])) = [7; 3].
Proof. vm_compute. auto. Qed.

(** jit_advance_scope saturates: two calls return the same "new" scope, which is
    in use already. *)
Theorem C07_advance_refuted : exists s h s' c,
  reach s h /\ allowed s h (OAdvance 0 1) /\ step s (OAdvance 0 1) = Some (s', OVal c) /\ in_use s c.
Proof.
  exists (st_of hist_scopes), [3; 2; 1]. eexists _, _.
  split; [apply (client_held hist_scopes); vm_compute; reflexivity|].
  split; [apply allowed_b_ok; vm_compute; reflexivity|]. split; [vm_compute; reflexivity|].
  left. vm_compute. auto.
Qed.
Print Assumptions C07_advance_refuted.

(** A scope that the caller saved (jit_scope) and restores later (jit_set_scope)
    is not renumbered by a compaction in between: variable 1 was created in the
    saved scope 3, but lives in another one after the restore, and scope 3 now
    belongs to another thread. *)
Theorem C07_saved_scope_refuted : exists s v,
  run st_init (hist_scopes ++ [ONewScope 0; OSetScope 0 3]) = Some (s, outs_of (hist_scopes ++ [ONewScope 0; OSetScope 0 3])) /\
  vget (st_of [OThread; OThread; OLiteral env0 2 7 5 4]) 1 = Some v /\ v_scope v = 3 /\
  nth_error (tscope s) 0 = Some 3 /\ nth_error (tscope s) 1 = Some 3 /\
  option_map v_scope (vget s 1) = Some 2.
Proof.
  eexists _, _. split; [vm_compute; reflexivity|]. split; [vm_compute; reflexivity|].
  repeat split; vm_compute; reflexivity.
Qed.
Print Assumptions C07_saved_scope_refuted.
