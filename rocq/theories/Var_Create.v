(** jitc_var_new and the functions that call it. *)
From Verif Require Import Base FreeSlots_Model FreeSlots_Spec FreeSlots_Proofs Var_Model Var_Spec Var_Inv Var_Count Var_Free Var_New.
Local Open Scope N_scope.

Definition scope_of (v : var) (sc : N) : N := if is_evaluated v && negb (v_array v) then SCOPE_BUFFER else sc.

(** Requirements on the arguments of jitc_var_new. *)
Record new_pre (s : st) (al : N -> bool) (v : var) (sc : N) : Prop := {
  np_rc : v_rc v = 0; np_se : v_se v = 0;
  np_wf : wf v;
  np_dep : forall d, In d (v_dep v) -> d <> 0 -> al d = true;
  np_wp : v_wptr v = true -> v_kind v = K_Literal /\ exists d, v_dep v = [0; 0; 0; d] /\ d <> 0 /\
          is_evaluated (V s d) = true;
  np_sc : sc <= sctr s }.

(** The result of creating a variable that is not merged with an existing one. *)
Record created (s : st) (al : N -> bool) (v : var) (sc : N) (s' : st) (i : N) : Prop := {
  cr_al : al i = false;
  cr_i : 0 < i < sz s';
  cr_V : V s' i = set_rc (set_counter (set_vscope v (scope_of v sc)) (v_counter (V s i))) 1;
  cr_j : forall j, j <> i -> V s' j = V s j;
  cr_ts : tscope s' = tscope s;
  cr_sctr : sctr s' = sctr s;
  cr_heap : heap s' = heap s;
  cr_sz : sz s' = sz s \/ sz s' = sz s + 1;
  cr_lvn : lvn s' = lvn s \/
     lvn s' = (key_of (set_vscope v (scope_of v sc)), i) :: lvn s /\ is_evaluated v = false /\
     ~ In (key_of (set_vscope v (scope_of v sc))) (map fst (lvn s));
  cr_slots : slots s' (fupd al i true) }.

Lemma created_grows s al v sc s' i : created s al v sc s' i -> grows s al s' (fupd al i true).
Proof.
  intros C. constructor; try apply C.
  - intros j Hj. unfold fupd. destruct (j =? i); auto.
  - intros j Hj. rewrite (cr_j _ _ _ _ _ _ C); auto. intros ->. rewrite (cr_al _ _ _ _ _ _ C) in Hj. discriminate.
  - intros j. destruct (N.eq_dec j i) as [->|]; [now rewrite (cr_V _ _ _ _ _ _ C)|].
    now rewrite (cr_j _ _ _ _ _ _ C).
  - intros k j H. destruct (cr_lvn _ _ _ _ _ _ C) as [->|(-> & _)]; [auto|now right].
  - intros p c. now rewrite (cr_heap _ _ _ _ _ _ C).
  - destruct (cr_sz _ _ _ _ _ _ C); lia.
Qed.

Lemma removelast_app1 {A} (l : list A) x : removelast (l ++ [x]) = l.
Proof. rewrite removelast_app by discriminate. cbn. apply app_nil_r. Qed.

Lemma upd_app_last {A} (l : list A) (x y : A) : upd (length l) y (l ++ [x]) = Some (l ++ [y]).
Proof.
  unfold upd. rewrite app_length. cbn [length]. destruct (Nat.ltb_spec (length l) (length l + 1)); [|lia].
  f_equal. induction l as [|a l IH]; cbn; auto. f_equal. apply IH. lia.
Qed.

Lemma var_new_at_ok s e sc v dis al own ownse hx :
  INV s al (fun j => own j + cnt v j) (fun j => ownse j + cnt_se v j) [] hx ->
  new_pre s al v sc -> (forall j, own j + 4 * sz s + 8 < 2 ^ 32) ->
  exists s' i, var_new_at s e sc v dis = Some (s', i) /\
    (created s al v sc s' i \/
     (is_evaluated v = false /\ dis = false /\ al i = true /\ INV s' al (plus1 own i) ownse [] hx /\
      grows s al s' al /\ sz s' <= sz s + 1 /\ key_of (V s i) = key_of (set_vscope v (scope_of v sc)))) /\
    (dis = false -> e_vn e = true -> v_type v <> T_Void -> is_evaluated v = false ->
     find_lvn (key_of (V s' i)) (lvn s') = Some i).
Proof.
  intros I P Hb. pose proof (I_stat _ _ _ _ _ _ I) as S.
  destruct (acquire_ok s e al _ _ hx I) as
    (s1 & i & b & E1 & Hi & Hr & EV1 & Em & Et & Ec & Eh & Esz & Hf & Ht & Hsl); [specialize (Hb 0); lia|].
  unfold var_new_at. rewrite E1. cbn [bind]. clear E1. rewrite vget_V by lia. cbn [bind]. rewrite EV1.
  destruct (c_free _ _ _ _ _ _ (I_cnt _ _ _ _ _ _ I) i Hi) as (Z1 & Z2).
  assert (Rf : referenced (V s i) = false) by (unfold referenced; rewrite Z1, Z2; reflexivity).
  rewrite Rf. fold (scope_of v sc).
  set (v1 := set_vscope v (scope_of v sc)).
  set (w := set_counter v1 (v_counter (V s i))).
  destruct (vset_spec s1 i w ltac:(lia)) as (s2 & E2 & EV2 & EL2 & EU2 & Em2 & Et2 & Ec2 & Eh2).
  rewrite E2. cbn [bind].
  assert (Vi2 : V s2 i = w) by (rewrite EV2; apply fupd_eq).
  assert (Vj2 : forall j, j <> i -> V s2 j = V s j) by (intros j Hj; rewrite EV2, fupd_ne, EV1; auto).
  assert (Hi2 : i < sz s2) by (unfold sz in *; rewrite EL2; lia).
  rewrite Em2, Em.
  assert (FIN : forall s3, V s3 = V s2 -> vars s3 = vars s2 -> heap s3 = heap s -> tscope s3 = tscope s ->
     sctr s3 = sctr s -> unused s3 = unused s2 ->
     (lvn s3 = lvn s \/ lvn s3 = (key_of v1, i) :: lvn s /\ is_evaluated v = false /\ ~ In (key_of v1) (map fst (lvn s))) ->
     exists s', (let? w := vget s3 i in let? s := vset s3 i (set_rc w (u32 (v_rc w + 1))) in Some (s, i)) = Some (s', i)
                /\ created s al v sc s' i /\ lvn s' = lvn s3).
  { intros s3 A B D F G K L.
    assert (Hi3 : i < sz s3) by (unfold sz; rewrite B; exact Hi2).
    rewrite vget_V by lia. cbn [bind]. rewrite A, Vi2.
    assert (Ew : v_rc w = 0) by apply P. rewrite Ew. change (u32 (0 + 1)) with 1.
    destruct (vset_spec s3 i (set_rc w 1) Hi3) as (s4 & E4 & EV4 & EL4 & EU4 & Em4 & Et4 & Ec4 & Eh4).
    rewrite E4. cbn [bind]. exists s4. split; [reflexivity|]. split; [|exact Em4].
    assert (SZ : sz s4 = sz s1) by (unfold sz; rewrite EL4, B, EL2; reflexivity).
    constructor; try congruence.
    - rewrite EV4. apply fupd_eq.
    - intros j Hj. rewrite EV4, fupd_ne, A by auto. now apply Vj2.
    - rewrite SZ. destruct Esz as [|(? & _)]; auto.
    - rewrite Em4. destruct L as [|]; auto.
    - destruct Hsl as (F0 & HF & HFin). exists F0. rewrite EU4, K, EU2. split; [exact HF|].
      intros j. rewrite SZ. apply HFin. }
  destruct (negb dis && negb (v_type v =? T_Void) && negb (is_evaluated v) && e_vn e) eqn:Use.
  - assert (Hdis : dis = false) by (destruct dis; [discriminate|reflexivity]).
    assert (Hne : is_evaluated v = false).
    { destruct (is_evaluated v); auto. rewrite andb_false_r in Use. discriminate. }
    destruct (find_lvn (key_of v1) (lvn s)) as [j|] eqn:Ef.
    + (* merged *)
      pose proof (find_lvn_in _ _ _ Ef) as Hin.
      destruct (s_lvn _ _ _ _ _ _ _ S _ _ Hin) as (Hj & Hje & Hk).
      assert (Hji : j <> i) by congruence.
      assert (B : exists s3, (if b then let? u := fs_push i (unused s2) in Some (with_unused s2 u)
                    else Some (with_vars s2 (removelast (vars s2)))) = Some s3 /\
                  INV s3 al (fun j => own j + cnt v j) (fun j => ownse j + cnt_se v j) [] hx /\
                  grows s al s3 al /\ lvn s3 = lvn s /\ (forall j, j <> i -> V s3 j = V s j)).
      { destruct b.
        - destruct (Ht eq_refl) as (Ev & F & HF & HnF & HFin).
          destruct (fs_push_rel (unused s2) F i) as (u & Eu & HF').
          { now rewrite EU2. } { pose proof (I_len _ _ _ _ _ _ I). specialize (Hb 0). lia. } { exact HnF. }
          rewrite Eu. cbn [bind]. exists (with_unused s2 u). split; [reflexivity|].
          assert (EL : length (vars (with_unused s2 u)) = length (vars s)) by (cbn; now rewrite EL2, Ev).
          split; [|split; [|split]].
          + eapply (INV_garbage s _ _ _ _ _ i); eauto; cbn [lvn heap tscope sctr with_unused]; try congruence.
            * change (V (with_unused s2 u)) with (V s2). rewrite Vi2. apply P.
            * change (V (with_unused s2 u)) with (V s2). rewrite Vi2. apply P.
            * exists (sp_insert i F). split; [exact HF'|]. intros k. rewrite sp_insert_In, HFin.
              unfold sz in *. rewrite EL. rewrite Ev in Hr.
              destruct (N.eq_dec k i) as [->|]; intuition congruence.
          + constructor; cbn [lvn heap tscope sctr with_unused]; try congruence; auto.
            * intros k Hk'. change (V (with_unused s2 u)) with (V s2). rewrite Vj2; auto. congruence.
            * intros k. change (V (with_unused s2 u)) with (V s2).
              destruct (N.eq_dec k i) as [->|]; [now rewrite Vi2|now rewrite Vj2].
            * unfold sz. rewrite EL. lia.
          + cbn. congruence.
          + intros k Hk'. change (V (with_unused s2 u)) with (V s2). now apply Vj2.
        - destruct (Hf eq_refl) as (Ev & Eu).
          assert (Ei : N.to_nat i = length (vars s)).
          { destruct Esz as [Ez|(_ & Ez)]; [|unfold sz in Ez; lia]. exfalso. unfold sz in Ez. rewrite Ev, app_length in Ez.
            cbn in Ez. lia. }
          assert (Ev2 : vars s2 = vars s ++ [w]).
          { unfold vset in E2. rewrite Ev, Ei, upd_app_last in E2. cbn [bind] in E2. injection E2 as <-. reflexivity. }
          exists (with_vars s2 (removelast (vars s2))). rewrite Ev2, removelast_app1. split; [reflexivity|].
          assert (EV : V (with_vars s2 (vars s)) = V s) by reflexivity.
          split; [|split; [|split]].
          + eapply (INV_garbage s _ _ _ _ _ i); eauto; cbn [lvn heap tscope sctr vars with_vars]; try congruence.
            destruct (I_slots _ _ _ _ _ _ I) as (F & HF & HFin). exists F. cbn [unused with_vars].
            rewrite EU2, Eu. auto.
          + constructor; cbn [lvn heap tscope sctr with_vars]; try congruence; auto. 
            unfold sz; cbn; lia.
          + cbn. congruence.
          + intros k _. now rewrite EV. }
      destruct B as (s3 & E3 & I3 & G3 & Em3 & Vj3). rewrite E3. cbn [bind].
      assert (Wj : wf (V s3 j)) by (rewrite Vj3 by auto; now apply (s_wf _ _ _ _ _ _ _ S)).
      assert (Wv : wf v1) by apply P.
      assert (Ekey : key_of (V s3 j) = key_of v1) by (rewrite Vj3; auto).
      destruct (key_inj _ _ Wj Wv Ekey) as (SC & _).
      destruct SC as (_&_&_&_&_&Ed&_&Ew&_). cbn in Ed, Ew.
      assert (D : exists s4, (if v_wptr v1 then let? d := nth_error (v_dep v1) 3 in dec_ref_se s3 d
                  else dec_refs s3 (v_dep v1)) = Some s4 /\ INV s4 al own ownse [] hx /\ counts_only s3 s4).
      { change (v_wptr v1) with (v_wptr v). change (v_dep v1) with (v_dep v).
        pose proof (al_range _ _ _ _ _ _ _ I3 Hj) as Hj3. unfold sz in Hj3.
        destruct (v_wptr v) eqn:W.
        - destruct (np_wp _ _ _ _ P W) as (_ & d & Hd & Hd0 & _). rewrite Hd. cbn [nth_error bind].
          apply dec_ref_se_keep; auto.
          + eapply INV_own; [| |exact I3]; intros k Hk0; unfold cnt, cnt_se, plus1; rewrite W; [lia|].
            rewrite Hd, !occ_cons, occ_nil. destruct (N.eqb_spec k 0); [congruence|]. lia.
          + assert (0 < refs_se (V s3) al (length (vars s3)) d); [|lia].
            eapply refs_se_in with (k := j); auto; try lia. rewrite Ed, Hd. simpl; auto.
        - apply dec_refs_keep.
          + eapply INV_own; [| |exact I3]; intros k Hk0; unfold cnt, cnt_se, plusl; rewrite W; lia.
          + intros d Hd Hd0. eapply refs_in with (k := j); auto; try lia. now rewrite Ed. }
      destruct D as (s4 & E4 & I4 & CO4). rewrite E4. cbn [bind].
      assert (Sz4 : sz s4 <= sz s + 1).
      { unfold sz. rewrite (co_len _ _ CO4). pose proof (I_cnt _ _ _ _ _ _ I3).
        destruct b.
        - destruct (Ht eq_refl) as (Ev & _). destruct (fs_push i (unused s2)) as [u|]; [|discriminate].
          cbn [bind] in E3. injection E3 as <-. cbn. rewrite EL2, Ev. lia.
        - destruct (Hf eq_refl) as (Ev & _). injection E3 as <-. cbn.
          assert (length (removelast (vars s2)) <= length (vars s2))%nat.
          { generalize (vars s2) as l. induction l as [|a l IH]; [cbn; lia|]. cbn. destruct l; cbn in *; lia. }
          rewrite EL2, Ev, app_length in *. cbn in *. lia. }
      destruct (inc_ref_ok s4 al own ownse hx j I4 Hj) as (s5 & E5 & I5 & CO5 & Vi5 & _).
      { specialize (Hb j). lia. }
      destruct (al_jitc _ _ _ _ _ _ I4 Hj) as (J & _). rewrite J. cbn [bind].
      unfold inc_ref in E5. rewrite J in E5. cbn [bind] in E5.
      destruct (N.eqb_spec j 0) as [->|Hj0].
      { apply (c_range _ _ _ _ _ _ (I_cnt _ _ _ _ _ _ I)) in Hj. lia. }
      pose proof (al_range _ _ _ _ _ _ _ I4 Hj). rewrite vget_V by lia. cbn [bind]. rewrite E5. cbn [bind].
      exists s5, j. split; [reflexivity|].
      assert (GR : grows s al s5 al).
      { eapply grows_trans; [exact G3|]. apply grows_counts. eapply counts_only_trans; eauto. }
      split.
      * right. split; [exact Hne|]. split; [exact Hdis|]. split; [exact Hj|]. split; [exact I5|].
        split; [exact GR|]. split; [|now rewrite Hk].
        unfold sz. rewrite (co_len _ _ CO5). exact Sz4.
      * intros _ _ _ _. rewrite (key_core (V s5 j) (V s j)) by (now apply GR).
        rewrite Hk, (co_lvn _ _ CO5), (co_lvn _ _ CO4), Em3. exact Ef.
    + destruct (FIN (with_lvn s2 ((key_of v1, i) :: lvn s))) as (s' & E & CR & EM);
        [reflexivity|reflexivity|cbn; congruence|cbn; congruence|cbn; congruence|reflexivity| |].
      { right. split; [reflexivity|]. split; [exact Hne|]. now apply find_lvn_none. }
      cbn [bind]. rewrite E. exists s', i. split; [reflexivity|]. split; [now left|].
      intros _ _ _ _. rewrite EM. cbn [lvn with_lvn find_lvn].
      rewrite (cr_V _ _ _ _ _ _ CR). fold v1.
      change (key_of (set_rc (set_counter v1 (v_counter (V s i))) 1)) with (key_of v1).
      pose proof (proj2 (key_eqb_spec (key_of v1) (key_of v1)) eq_refl) as ->. reflexivity.
  - destruct (FIN s2) as (s' & E & CR & EM); auto; try congruence.
    { left. congruence. }
    cbn [bind]. rewrite E. exists s', i. split; [reflexivity|]. split; [now left|].
    intros -> Hvn Hty Hne. exfalso. rewrite Hne, Hvn in Use. destruct (N.eqb_spec (v_type v) T_Void); [congruence|].
    discriminate.
Qed.
