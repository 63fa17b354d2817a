From Verif Require Import Base Rec_Model Rec_Spec.
Local Open Scope N_scope.

(** ** Checkpoints *)
Lemma deep_eq names name : deep names name = Nat.ltb 1 (length (filter (same_name name) names)).
Proof.
  unfold deep. destruct name as [n|].
  - unfold Nat.ltb. f_equal. induction names as [|m names IH]; cbn [count_occ filter length]; [reflexivity|]. destruct (name_dec m (Some n)) as [->|NE].
    + cbn [same_name]. rewrite N.eqb_refl. cbn [length]. now rewrite IH.
    + destruct m as [m|]; cbn [same_name]; [|exact IH]. destruct (N.eqb_spec n m) as [->|]; [congruence|exact IH].
  - replace (filter (same_name None) names) with (@nil (option N)); [reflexivity|]. induction names as [|m names IH]; cbn [filter same_name]; auto.
Qed.
Lemma low31_ones : low31 = N.ones 31. Proof. reflexivity. Qed.
Lemma bit_false n : n < 0x80000000 -> N.land n bit31 = 0.
Proof.
  intros H. apply N.bits_inj. intros i. rewrite N.land_spec, N.bits_0. change bit31 with (2 ^ 31). rewrite N.pow2_bits_eqb.
  destruct (31 =? i) eqn:E; [|apply andb_false_r]. apply N.eqb_eq in E. subst i. rewrite andb_true_r.
  destruct (N.eq_dec n 0) as [->|Z]; [reflexivity|]. apply N.bits_above_log2. apply N.log2_lt_pow2; [lia|]. exact H.
Qed.
Lemma lor_add n : n < 0x80000000 -> N.lor n bit31 = n + bit31.
Proof. intros H. symmetry. rewrite <- N.lxor_lor by now apply bit_false. apply N.add_nocarry_lxor. now apply bit_false. Qed.
Lemma low_of n (b : bool) : n < 0x80000000 -> N.land (if b then n + bit31 else n) low31 = n.
Proof.
  intros H. rewrite low31_ones, N.land_ones. change (2 ^ 31) with 0x80000000. unfold bit31. destruct b.
  - replace (n + 0x80000000) with (n + 1 * 0x80000000) by lia. rewrite N.mod_add by discriminate. now apply N.mod_small.
  - now apply N.mod_small.
Qed.
Lemma high_of n (b : bool) : n < 0x80000000 -> negb (N.land (if b then n + bit31 else n) bit31 =? 0) = b.
Proof.
  intros H. destruct b.
  - rewrite <- lor_add by assumption. rewrite N.land_lor_distr_l, N.land_diag, bit_false by assumption. reflexivity.
  - now rewrite bit_false.
Qed.
Lemma ck_val s : N.of_nat (length (r_queue s)) < 0x80000000 ->
  checkpoint s = if r_flag s then N.of_nat (length (r_queue s)) + bit31 else N.of_nat (length (r_queue s)).
Proof.
  intros H. unfold checkpoint. assert (E : u32 (N.of_nat (length (r_queue s))) = N.of_nat (length (r_queue s))) by (unfold u32; apply N.mod_small; lia).
  rewrite E. destruct (r_flag s); [now apply lor_add|reflexivity].
Qed.

(** ** Induction *)
Fixpoint stmt_ind' (P : stmt -> Prop) (H1 : forall h, P (SEff h)) (H2 : P SRaise)
    (H3 : forall name insts e l, Forall (Forall P) insts -> P (SCall name insts e l)) (p : stmt) : P p :=
  match p with
  | SEff h => H1 h
  | SRaise => H2
  | SCall name insts e l => H3 name insts e l
      ((fix go (l : list (list stmt)) : Forall (Forall P) l :=
          match l with
          | [] => Forall_nil _
          | p :: l => Forall_cons _ ((fix go2 (p : list stmt) : Forall P p :=
                        match p with [] => Forall_nil _ | c :: p => Forall_cons _ (stmt_ind' P H1 H2 H3 c) (go2 p) end) p) (go l)
          end) insts)
  end.

Definition lv (l : list eff) : list nat := flat_map leaves l.
Lemma lv_app a b : lv (a ++ b) = lv a ++ lv b. Proof. apply flat_map_app. Qed.
Lemma lv_concat es : lv (concat es) = flat_map lv es.
Proof. induction es as [|e es IH]; [reflexivity|]. cbn [concat flat_map]. now rewrite lv_app, IH. Qed.
Lemma lv_rev l : Permutation (lv (rev l)) (lv l).
Proof. unfold lv. induction l as [|x l IH]; [reflexivity|]. cbn [rev flat_map]. rewrite flat_map_app. cbn [flat_map]. rewrite app_nil_r. rewrite Permutation_app_comm. now apply Permutation_app_head. Qed.

Lemma den_len names c : (length (fst (den names c)) <= 1)%nat.
Proof.
  destruct c as [h| |name insts e l]; cbn [den fst length]; [lia|lia|]. destruct (deep names name); [cbn; lia|].
  destruct (den_insts _ insts) as [es x]. destruct (_ || _ || _ || _); [cbn; lia|]. destruct (nothing es); cbn; lia.
Qed.
Lemma weight_pos c : 1 <= weight c. Proof. destruct c; cbn [weight]; lia. Qed.

Definition bnd : N := 0x7fffffff.
Definition len (s : rstate) : N := N.of_nat (length (r_queue s)).
Definition good (c : stmt) : Prop := forall s, len s + weight c < bnd ->
  exists rel, exec c s = Ran (snd (den (r_names s) c)) (add_effects s (fst (den (r_names s) c))) rel /\
    Permutation (lv (fst (den (r_names s) c)) ++ lv rel) (seen (r_names s) c).

Lemma add_nil s : add_effects s [] = s.
Proof. unfold add_effects, with_queue. destruct s as [q d f n]; cbn. destruct f; now rewrite app_nil_r. Qed.
Lemma add_app s a b : add_effects (add_effects s a) b = add_effects s (a ++ b).
Proof. unfold add_effects, with_queue. destruct s as [q d f n]; cbn. destruct f; cbn; now rewrite app_assoc. Qed.
Lemma add_names s a : r_names (add_effects s a) = r_names s.
Proof. unfold add_effects. now destruct (r_flag s). Qed.
Lemma add_flag s a : r_flag (add_effects s a) = r_flag s.
Proof. unfold add_effects. destruct (r_flag s) eqn:E; [exact E|reflexivity]. Qed.
Lemma add_len s a : len (add_effects s a) <= len s + N.of_nat (length a).
Proof. unfold len, add_effects, with_queue. destruct (r_flag s); cbn [r_queue]; rewrite ?app_length; lia. Qed.

Lemma body_ok p : Forall good p -> forall s, len s + weights p < bnd ->
  exists rel, exec_body exec p s = Ran (snd (den_body (den (r_names s)) p)) (add_effects s (fst (den_body (den (r_names s)) p))) rel /\
    Permutation (lv (fst (den_body (den (r_names s)) p)) ++ lv rel) (seen_body (den (r_names s)) (seen (r_names s)) p) /\
    N.of_nat (length (fst (den_body (den (r_names s)) p))) <= weights p.
Proof.
  intros F. induction F as [|c p G _ IH]; intros s B.
  - exists []. cbn [exec_body den_body fst snd]. rewrite add_nil. split; [reflexivity|]. split; [constructor|]. cbn. lia.
  - cbn [weights fold_right] in B. change (fold_right (fun c a => weight c + a) 0 p) with (weights p) in B.
    destruct (G s) as (r1 & E1 & P1); [lia|]. cbn [exec_body den_body seen_body]. rewrite E1.
    pose proof (den_len (r_names s) c) as L1. pose proof (weight_pos c) as W1.
    destruct (den (r_names s) c) as [e x] eqn:D. cbn [fst snd] in *. destruct x.
    + exists r1. cbn [fst snd]. rewrite app_nil_r. repeat split; [exact P1|]. cbn [weights fold_right]. change (fold_right (fun c a => weight c + a) 0 p) with (weights p). lia.
    + pose proof (add_len s e) as AL. destruct (IH (add_effects s e)) as (r2 & E2 & P2 & L2); [lia|]. rewrite add_names in *. rewrite E2.
      destruct (den_body (den (r_names s)) p) as [e' x'] eqn:D2. cbn [fst snd] in *. rewrite add_app. exists (r1 ++ r2).
      repeat split.
      * rewrite !lv_app. rewrite <- P1, <- P2. rewrite <- !app_assoc. apply Permutation_app_head.
        rewrite !app_assoc. apply Permutation_app_tail. apply Permutation_app_comm.
      * rewrite app_length. cbn [weights fold_right]. change (fold_right (fun c a => weight c + a) 0 p) with (weights p). lia.
Qed.

(** Checkpoints *)
Fixpoint offsets (n : N) (es : list (list eff)) : list N :=
  match es with [] => [n] | e :: es => n :: offsets (n + N.of_nat (length e)) es end.
Definition iweights (insts : list (list stmt)) : N := fold_right (fun p a => weights p + a) 0 insts.
Lemma weight_call name insts e l : weight (SCall name insts e l) = 1 + iweights insts. Proof. reflexivity. Qed.

Lemma insts_ok insts : Forall (Forall good) insts -> forall s cks rel0, r_flag s = true -> len s + iweights insts < bnd ->
  let '(es, x) := den_insts (den (r_names s)) insts in
  exists rel q, Permutation (lv q ++ lv rel) (seen_insts (den (r_names s)) (seen (r_names s)) insts) /\ N.of_nat (length q) <= iweights insts /\
    fst (exec_insts exec insts s cks rel0) = Ran x (with_queue s (r_queue s ++ q)) (rel0 ++ rel) /\
    (x = false -> q = concat es /\ snd (exec_insts exec insts s cks rel0) = cks ++ map (fun n => n + bit31) (offsets (len s) es) /\ length es = length insts).
Proof.
  intros F. induction F as [|p insts Fp _ IH]; intros s cks rel0 FL B.
  - cbn [den_insts]. exists [], []. cbn [exec_insts seen_insts fst snd]. split; [constructor|]. split; [cbn; lia|].
    split. { rewrite !app_nil_r. unfold with_queue. now destruct s. }
    intros _. split; [reflexivity|]. split; [|reflexivity]. cbn [offsets map]. rewrite ck_val, FL by (unfold bnd, len in B; lia). reflexivity.
  - cbn [iweights fold_right] in B. change (fold_right (fun p a => weights p + a) 0 insts) with (iweights insts) in B.
    destruct (body_ok p Fp s) as (r1 & E1 & P1 & L1); [lia|].
    cbn [den_insts exec_insts seen_insts]. rewrite E1.
    destruct (den_body (den (r_names s)) p) as [e x] eqn:D. cbn [fst snd] in *. destruct x.
    + exists r1, e. rewrite app_nil_r. cbn [fst snd]. split; [exact P1|]. cbn [iweights fold_right]. change (fold_right (fun p a => weights p + a) 0 insts) with (iweights insts).
      split; [lia|]. split; [|discriminate]. unfold add_effects. now rewrite FL.
    + pose proof (add_len s e) as AL. specialize (IH (add_effects s e) (cks ++ [checkpoint s]) (rel0 ++ r1)).
      rewrite add_flag, add_names in IH. specialize (IH FL). destruct (den_insts (den (r_names s)) insts) as [es x'].
      destruct IH as (r2 & q & P2 & L2 & E2 & C2); [lia|].
      assert (A : add_effects s e = with_queue s (r_queue s ++ e)) by (unfold add_effects; now rewrite FL).
      exists (r1 ++ r2), (e ++ q). split.
      { rewrite !lv_app. rewrite <- P1, <- P2. rewrite <- !app_assoc. apply Permutation_app_head.
        rewrite !app_assoc. apply Permutation_app_tail. apply Permutation_app_comm. }
      split. { rewrite app_length. cbn [iweights fold_right]. change (fold_right (fun p a => weights p + a) 0 insts) with (iweights insts). lia. }
      split. { rewrite E2, A. unfold with_queue; cbn [r_queue r_done r_flag r_names]. now rewrite !app_assoc. }
      intros X. destruct (C2 X) as (-> & -> & LE). split; [reflexivity|]. split; [|cbn [length]; now rewrite LE].
      rewrite <- app_assoc. f_equal. cbn [app offsets map]. f_equal.
      * rewrite ck_val, FL by (unfold bnd, len in *; lia). reflexivity.
      * do 2 f_equal. rewrite A. unfold len, with_queue. cbn [r_queue]. rewrite app_length. lia.
Qed.

(** ** Moving the side effects *)
Lemma offsets_ne n es : exists l, offsets n es = n :: l. Proof. destruct es; cbn; eauto. Qed.
Lemma offsets_last n es d : last (offsets n es) d = n + N.of_nat (length (concat es)).
Proof.
  revert n. induction es as [|e es IH]; intros n; cbn [offsets concat last].
  - cbn. lia.
  - destruct (offsets_ne (n + N.of_nat (length e)) es) as (l & El). specialize (IH (n + N.of_nat (length e))). rewrite El in *. rewrite IH. rewrite app_length. lia.
Qed.
Lemma map_last (f : N -> N) l d : l <> [] -> last (map f l) (f d) = f (last l d).
Proof. induction l as [|x l IH]; [congruence|]. intros _. destruct l as [|y l]; [reflexivity|]. cbn [map last] in *. apply IH. discriminate. Qed.
Lemma last_default {A} (l : list A) d d' : l <> [] -> last l d = last l d'.
Proof. induction l as [|x l IH]; [congruence|]. intros _. destruct l as [|y l]; [reflexivity|]. cbn [last] in *. apply IH. discriminate. Qed.
Lemma slices_ok c0 b n0 es : forall n, n0 <= n -> b = bit31 -> n + N.of_nat (length (concat es)) < 0x80000000 -> c0 = n0 + b ->
  slices c0 (n - n0 + N.of_nat (length (concat es))) (map (fun n => n + b) (offsets n es)) = Some true.
Proof.
  induction es as [|e es IH]; intros n L Eb B Ec; [reflexivity|]. cbn [offsets map concat] in *. rewrite app_length in *.
  specialize (IH (n + N.of_nat (length e))). destruct (offsets_ne (n + N.of_nat (length e)) es) as (l & El). rewrite El in *. cbn [map] in *.
  cbn [slices]. destruct (n + N.of_nat (length e) + b <? n + b) eqn:E; [apply N.ltb_lt in E; lia|].
  replace (sub32 (n + N.of_nat (length e) + b) c0) with (n + N.of_nat (length e) - n0).
  2:{ subst c0 b. unfold sub32, u32, bit31 in *. destruct (N.leb_spec (n0 + 0x80000000) (n + N.of_nat (length e) + 0x80000000)); lia. }
  destruct (n - n0 + N.of_nat (length e + length (concat es)) <? n + N.of_nat (length e) - n0) eqn:E2; [apply N.ltb_lt in E2; lia|].
  rewrite andb_false_r. replace (n - n0 + N.of_nat (length e + length (concat es))) with (n + N.of_nat (length e) - n0 + N.of_nat (length (concat es))) by lia. apply IH; lia || assumption.
Qed.
Lemma pieces_cons l a b c : pieces l (a :: b :: c) = firstn (N.to_nat (b - a)) (skipn (N.to_nat a) l) :: pieces l (b :: c).
Proof. reflexivity. Qed.
Lemma pieces_ok es : forall pre n, n = N.of_nat (length pre) -> pieces (pre ++ concat es) (offsets n es) = es.
Proof.
  induction es as [|e es IH]; intros pre n E; [reflexivity|]. cbn [offsets concat].
  specialize (IH (pre ++ e) (n + N.of_nat (length e))). destruct (offsets_ne (n + N.of_nat (length e)) es) as (l & El). rewrite El in *.
  rewrite pieces_cons. rewrite <- app_assoc in IH. rewrite IH by (rewrite app_length; lia). f_equal.
  subst n. rewrite Nat2N.id, skipn_app, skipn_all, Nat.sub_diag. cbn [skipn app].
  replace (N.to_nat (N.of_nat (length pre) + N.of_nat (length e) - N.of_nat (length pre))) with (length e) by lia.
  rewrite firstn_app, firstn_all, Nat.sub_diag. cbn. apply app_nil_r.
Qed.
Lemma offsets_sub n0 es : forall n, n0 <= n -> n + N.of_nat (length (concat es)) < 0x80000000 ->
  map (fun c => sub32 c (n0 + bit31)) (map (fun n => n + bit31) (offsets n es)) = offsets (n - n0) es.
Proof.
  assert (G : forall n, n0 <= n -> n < 0x80000000 -> sub32 (n + bit31) (n0 + bit31) = n - n0).
  { intros n L B. unfold sub32, u32, bit31. lia. }
  induction es as [|e es IH]; intros n L B; cbn [offsets map concat] in *; rewrite ?app_length in *.
  - rewrite G by (cbn [length] in B; lia). reflexivity.
  - rewrite G by lia. f_equal. rewrite IH by lia. f_equal. lia.
Qed.
Lemma nothing_len {A} (es : list (list A)) : nothing es = (N.of_nat (length (concat es)) =? 0).
Proof.
  induction es as [|e es IH]; [reflexivity|]. cbn [nothing forallb concat]. change (forallb _ es) with (nothing es). rewrite IH, app_length.
  destruct e; cbn [length app Nat.add andb]; [reflexivity|]. symmetry. apply N.eqb_neq. lia.
Qed.
Lemma slices_two n e es : exists y l, map (fun n => n + bit31) (offsets n (e :: es)) = (n + bit31) :: y :: l.
Proof. cbn [offsets map]. destruct (offsets_ne (n + N.of_nat (length e)) es) as (l & ->). cbn [map]. eauto. Qed.

Lemma move_ok s q es symbolic early late : es <> [] -> r_queue s = q ++ concat es -> N.of_nat (length q + length (concat es)) < 0x80000000 ->
  move_effects s symbolic (map (fun n => n + bit31) (offsets (N.of_nat (length q)) es)) early late =
    if early then MRaise s []
    else if late then MRaise (with_queue s q) (concat es)
    else if nothing es then MOk (with_queue s q)
    else MOk (mark_side_effect (with_queue s q) symbolic (ECalls es)).
Proof.
  intros NE Q B. destruct es as [|e0 es0]; [congruence|]. set (es := e0 :: es0) in *.
  destruct (slices_two (N.of_nat (length q)) e0 es0) as (y & l & Ec). fold es in Ec.
  assert (EL : last (map (fun n => n + bit31) (offsets (N.of_nat (length q)) es)) 0 = N.of_nat (length q) + N.of_nat (length (concat es)) + bit31).
  { rewrite last_default with (d' := (fun n => n + bit31) 0). rewrite (map_last (fun n => n + bit31)).
    - now rewrite offsets_last.
    - destruct (offsets_ne (N.of_nat (length q)) es) as (l' & ->). discriminate.
    - now rewrite Ec. }
  pose proof (slices_ok (N.of_nat (length q) + bit31) bit31 (N.of_nat (length q)) es (N.of_nat (length q)) ltac:(lia) eq_refl ltac:(lia) eq_refl) as SO.
  pose proof (offsets_sub (N.of_nat (length q)) es (N.of_nat (length q)) ltac:(lia) ltac:(lia)) as OS.
  rewrite N.sub_diag in *. rewrite N.add_0_l in SO.
  unfold move_effects. rewrite Ec in *. rewrite EL.
  pose proof (low_of (N.of_nat (length q) + N.of_nat (length (concat es))) true ltac:(lia)) as LO1. cbn iota in LO1. rewrite LO1.
  pose proof (low_of (N.of_nat (length q)) true ltac:(lia)) as LO2. cbn iota in LO2. rewrite LO2.
  rewrite Q, app_length. replace (N.of_nat (length q + length (concat es)) =? N.of_nat (length q) + N.of_nat (length (concat es))) with true by (symmetry; apply N.eqb_eq; lia).
  cbn [negb]. rewrite orb_false_r. destruct early; [reflexivity|].
  destruct (N.of_nat (length q) + N.of_nat (length (concat es)) <? N.of_nat (length q)) eqn:E; [apply N.ltb_lt in E; lia|].
  rewrite Nat2N.id, skipn_app, skipn_all, Nat.sub_diag, firstn_app, firstn_all, Nat.sub_diag. cbn [skipn app firstn]. rewrite app_nil_r.
  rewrite SO. destruct late; [reflexivity|]. rewrite nothing_len.
  replace (sub32 (N.of_nat (length q) + N.of_nat (length (concat es)) + bit31) (N.of_nat (length q) + bit31)) with (N.of_nat (length (concat es))) by (unfold sub32, u32, bit31; lia).
  destruct (N.of_nat (length (concat es)) =? 0); [reflexivity|]. rewrite OS. pose proof (pieces_ok es [] 0 eq_refl) as PO. cbn [app] in PO. now rewrite PO.
Qed.

(** ** Whole programs *)
Lemma exec_ok c : good c.
Proof.
  induction c as [h| |name insts early late F] using stmt_ind'; intros s B.
  - exists []. split; [|reflexivity]. reflexivity.
  - exists []. split; [|reflexivity]. cbn [den fst snd exec]. now rewrite add_nil.
  - rewrite weight_call in B. cbn [exec den seen]. unfold exec_call, record_begin. rewrite <- deep_eq.
    destruct (deep (r_names s) name). { exists []. cbn [fst snd]. rewrite add_nil. now split. }
    rewrite ck_val by (unfold len, bnd in B; lia). fold (len s).
    set (ck := if r_flag s then len s + bit31 else len s).
    assert (CN : (ck =? 0xffffffff) = false) by (unfold ck, bit31, bnd in *; destruct (r_flag s); apply N.eqb_neq; lia).
    rewrite CN. set (s1 := {| r_queue := r_queue s; r_done := r_done s; r_flag := true; r_names := name :: r_names s |}).
    pose proof (insts_ok insts F s1 [] [] eq_refl) as IO. change (len s1) with (len s) in IO. specialize (IO ltac:(lia)).
    change (r_names s1) with (name :: r_names s) in IO. destruct (den_insts (den (name :: r_names s)) insts) as [es x].
    destruct IO as (rel & q & P & BQ & E & C). cbn [app] in E. destruct (exec_insts exec insts s1 [] []) as [o cks]. cbn [fst snd] in *. subst o.
    change (r_queue s1) with (r_queue s) in *.
    assert (LOW : N.land ck low31 = len s) by (apply (low_of (len s) (r_flag s)); unfold bnd in B; lia).
    assert (HIGH : negb (N.land ck bit31 =? 0) = r_flag s) by (apply (high_of (len s) (r_flag s)); unfold bnd in B; lia).
    assert (FIN : forall q rel, finish (with_queue s1 (r_queue s ++ q)) ck true rel = Ran true s (rel ++ rev q)).
    { intros q' rel'. unfold finish, record_end, with_queue, s1. cbn [r_names r_queue r_done r_flag]. rewrite LOW, HIGH.
      unfold len. rewrite app_length. destruct (N.of_nat (length (r_queue s) + length q') <? N.of_nat (length (r_queue s))) eqn:EL; [apply N.ltb_lt in EL; lia|].
      rewrite Nat2N.id, firstn_app, firstn_all, Nat.sub_diag, skipn_app, skipn_all, Nat.sub_diag. cbn [firstn skipn app]. rewrite app_nil_r. now destruct s. }
    destruct x.
    { (* an instance raises *)
      cbn [orb fst snd]. rewrite FIN. exists (rel ++ rev q). rewrite add_nil. split; [reflexivity|]. cbn [lv flat_map app]. change (flat_map leaves) with lv. rewrite lv_app.
      rewrite lv_rev, Permutation_app_comm. exact P. }
    destruct (C eq_refl) as (-> & -> & LE). cbn [app] in *. cbn [orb].
    destruct insts as [|p0 insts].
    { destruct es; [|discriminate]. rewrite orb_true_r. cbn [fst snd concat offsets map move_effects app]. rewrite app_nil_r.
      assert (F0 := FIN [] rel). rewrite app_nil_r in F0. cbn [rev] in F0. rewrite app_nil_r in F0. cbn [concat] in *. rewrite app_nil_r. rewrite F0. exists rel. rewrite add_nil. split; [reflexivity|]. exact P. }
    set (ii := p0 :: insts) in *. rewrite orb_false_r.
    assert (NE : es <> []) by (destruct es; [discriminate|congruence]).
    rewrite (move_ok _ (r_queue s) es) by (auto; unfold len, bnd in *; lia).
    destruct early.
    { cbn [orb fst snd]. rewrite app_nil_r, FIN. exists (rel ++ rev (concat es)). rewrite add_nil. split; [reflexivity|]. cbn [lv flat_map app]. change (flat_map leaves) with lv.
      rewrite lv_app, lv_rev, Permutation_app_comm. exact P. }
    destruct late.
    { cbn [orb fst snd]. change (with_queue (with_queue s1 (r_queue s ++ concat es)) (r_queue s)) with (with_queue s1 (r_queue s)).
      assert (F0 := FIN [] (rel ++ concat es)). rewrite app_nil_r in F0. cbn [rev] in F0. rewrite app_nil_r in F0. rewrite F0.
      exists (rel ++ concat es). rewrite add_nil. split; [reflexivity|]. cbn [lv flat_map app]. change (flat_map leaves) with lv. rewrite lv_app, Permutation_app_comm. exact P. }
    cbn [orb]. destruct (nothing es) eqn:N0.
    + cbn [fst snd]. exists rel. rewrite nothing_len in N0. apply N.eqb_eq in N0. destruct (concat es); [|cbn in N0; lia]. rewrite add_nil. split; [|exact P].
      unfold finish, record_end, with_queue, s1. cbn [r_names r_queue r_done r_flag]. rewrite HIGH, app_nil_r. now destruct s.
    + cbn [fst snd]. exists rel. split.
      * unfold finish, record_end, mark_side_effect, add_effects. destruct (r_flag s) eqn:FL; unfold with_queue, s1; cbn [r_names r_queue r_done r_flag]; rewrite HIGH, app_nil_r; destruct s; cbn in *; congruence.
      * rewrite <- P. apply Permutation_app_tail. rewrite lv_concat. cbn [lv flat_map leaves]. rewrite app_nil_r. reflexivity.
Qed.
