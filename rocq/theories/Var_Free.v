(** Destruction of variables. *)
From Verif Require Import Base FreeSlots_Model FreeSlots_Spec FreeSlots_Proofs Var_Model Var_Spec Var_Inv Var_Count.
Local Open Scope N_scope.

Lemma refs_in f al n j k : al k = true -> k < N.of_nat n -> In j (v_dep (f k)) -> v_wptr (f k) = false ->
  0 < refs f al n j.
Proof.
  intros Ha Hk Hj Hw. pose proof (sumn_ge (fun k => if al k then cnt (f k) j else 0) k n Hk) as H.
  cbn beta in H. rewrite Ha in H. unfold cnt in H at 1. rewrite Hw in H. apply occ_pos in Hj. unfold refs. lia.
Qed.
Lemma refs_se_in f al n j k : al k = true -> k < N.of_nat n -> In j (v_dep (f k)) -> v_wptr (f k) = true ->
  0 < refs_se f al n j.
Proof.
  intros Ha Hk Hj Hw. pose proof (sumn_ge (fun k => if al k then cnt_se (f k) j else 0) k n Hk) as H.
  cbn beta in H. rewrite Ha in H. unfold cnt_se in H at 1. rewrite Hw in H. apply occ_pos in Hj. unfold refs_se. lia.
Qed.

Lemma unreferenced f al n own ownse todo i k :
  cnts f al n own ownse todo -> al i = true -> v_rc (f i) = 0 -> v_se (f i) = 0 -> al k = true ->
  ~ In i (v_dep (f k)).
Proof.
  intros C Hi H1 H2 Hk Hin. pose proof (c_rc _ _ _ _ _ _ C i Hi). pose proof (c_se _ _ _ _ _ _ C i Hi).
  pose proof (c_range _ _ _ _ _ _ C k Hk).
  destruct (v_wptr (f k)) eqn:W.
  - pose proof (refs_se_in f al n i k Hk ltac:(lia) Hin W). lia.
  - pose proof (refs_in f al n i k Hk ltac:(lia) Hin W). lia.
Qed.

Lemma cnts_free1 f g al n own ownse todo i :
  cnts f al n own ownse (i :: todo) -> core (g i) = core (f i) -> v_rc (g i) = 0 -> v_se (g i) = 0 ->
  (forall j, j <> i -> g j = f j) ->
  (forall d, In d (v_dep (f i)) -> d <> 0 -> al d = true) ->
  cnts g (fupd al i false) n (fun j => own j + cnt (f i) j) (fun j => ownse j + cnt_se (f i) j) todo.
Proof.
  intros C Ec E1 E2 Eg Hd.
  destruct (c_todo _ _ _ _ _ _ C i (or_introl eq_refl)) as (Hi & Hrc & Hse).
  pose proof (c_range _ _ _ _ _ _ C i Hi) as Hr.
  pose proof (c_nd _ _ _ _ _ _ C) as Nd. inversion Nd as [|? ? Hnt Nd']; subst.
  assert (Hni : ~ In i (v_dep (f i))) by (eapply unreferenced; eauto).
  assert (Ecore : forall k, core (g k) = core (f k)).
  { intros k. destruct (N.eq_dec k i) as [->|]; auto. now rewrite Eg. }
  assert (R : forall j, refs g (fupd al i false) n j + cnt (f i) j = refs f al n j).
  { intros j. rewrite <- (refs_free f al n i j) by (auto; lia). f_equal. apply refs_ext. auto. }
  assert (Rs : forall j, refs_se g (fupd al i false) n j + cnt_se (f i) j = refs_se f al n j).
  { intros j. rewrite <- (refs_se_free f al n i j) by (auto; lia). f_equal. apply refs_se_ext. auto. }
  assert (Ha : forall j, fupd al i false j = true -> al j = true /\ j <> i).
  { intros j. unfold fupd. destruct (N.eqb_spec j i); [easy|auto]. }
  assert (Z : forall j, j <> 0 -> al j = false \/ j = i -> cnt (f i) j = 0 /\ cnt_se (f i) j = 0).
  { intros j Hj Hc. unfold cnt, cnt_se.
    assert (occ (v_dep (f i)) j = 0).
    { destruct (N.eq_dec (occ (v_dep (f i)) j) 0); auto. exfalso.
      assert (In j (v_dep (f i))) by (apply occ_pos; lia). destruct Hc as [Hc| ->]; [|auto].
      rewrite Hd in Hc; auto. discriminate. }
    destruct (v_wptr (f i)); auto. }
  constructor.
  - intros j Hj. apply Ha in Hj as (Hj & _). now apply (c_range _ _ _ _ _ _ C).
  - intros j Hj. unfold fupd in Hj. destruct (N.eq_dec j i) as [->|Hne]; [auto|].
    destruct (N.eqb_spec j i); [congruence|]. rewrite Eg by auto. now apply (c_free _ _ _ _ _ _ C).
  - intros j Hn Hj. unfold fupd in Hj.
    assert (al j = false \/ j = i) as Hc by (destruct (N.eqb_spec j i); auto).
    destruct (Z j Hn Hc) as (-> & ->). destruct Hc as [Hc| ->].
    + destruct (c_own0 _ _ _ _ _ _ C j Hn Hc). lia.
    + pose proof (c_rc _ _ _ _ _ _ C i Hi). pose proof (c_se _ _ _ _ _ _ C i Hi). lia.
  - intros j Hj. apply Ha in Hj as (Hj & Hne). rewrite Eg by auto. rewrite (c_rc _ _ _ _ _ _ C j Hj).
    specialize (R j). lia.
  - intros j Hj. apply Ha in Hj as (Hj & Hne). rewrite Eg by auto. rewrite (c_se _ _ _ _ _ _ C j Hj).
    specialize (Rs j). lia.
  - exact Nd'.
  - intros j Hj. assert (j <> i) by congruence. rewrite fupd_ne, Eg by auto.
    apply (c_todo _ _ _ _ _ _ C). now right.
  - intros j Hj. apply Ha in Hj as (Hj & Hne). rewrite Eg by auto.
    destruct (c_live _ _ _ _ _ _ C j Hj) as [[->|]|]; auto. congruence.
Qed.

Lemma stat_free1 f g al m m' h h' hx ts ctr i :
  stat f al m h hx ts ctr -> al i = true -> (forall k, al k = true -> ~ In i (v_dep (f k))) ->
  (forall j, j <> i -> g j = f j) ->
  NoDup (map fst m') -> (forall k j, In (k, j) m' -> In (k, j) m /\ j <> i) ->
  h' = (if is_evaluated (f i) && negb (v_retain (f i)) then erase_heap (v_lit (f i)) h else h) ->
  stat g (fupd al i false) m' h' hx ts ctr.
Proof.
  intros S Hi Hu Eg Nm Hm Hh.
  assert (Ha : forall j, fupd al i false j = true -> al j = true /\ j <> i).
  { intros j. unfold fupd. destruct (N.eqb_spec j i); [easy|auto]. }
  assert (Hb : forall j, al j = true -> j <> i -> fupd al i false j = true).
  { intros j A B. now rewrite fupd_ne. }
  assert (Hsub : forall p c, In (p, c) h' -> In (p, c) h).
  { intros p c. rewrite Hh. destruct (_ && _); auto. apply erase_heap_in. }
  constructor.
  - intros j Hj. apply Ha in Hj as (Hj & Hn). rewrite Eg by auto. now apply (s_wf _ _ _ _ _ _ _ S).
  - intros j d Hj Hd Hd0. apply Ha in Hj as (Hj & Hn). rewrite Eg in Hd by auto. apply Hb.
    + eapply (s_dep _ _ _ _ _ _ _ S); eauto.
    + intros ->. eapply Hu; eauto.
  - destruct (s_rank _ _ _ _ _ _ _ S) as (rk & R). exists rk. intros j d Hj Hd Hd0.
    apply Ha in Hj as (Hj & Hn). rewrite Eg in Hd by auto. auto.
  - intros j Hj Hw. apply Ha in Hj as (Hj & Hn). rewrite Eg in * by auto.
    destruct (s_wp _ _ _ _ _ _ _ S j Hj Hw) as (K & d & Hd & Hd0 & He). split; [exact K|]. exists d.
    rewrite Eg; auto. intros ->. apply (Hu j Hj). rewrite Hd. simpl; auto.
  - intros j Hj Hw. apply Ha in Hj as (Hj & Hn). rewrite Eg in * by auto.
    destruct (s_ret _ _ _ _ _ _ _ S j Hj Hw) as (K & d & Hd & Hd0 & He). split; [exact K|]. exists d.
    rewrite Eg; auto. intros ->. apply (Hu j Hj). rewrite Hd. simpl; auto.
  - exact Nm.
  - intros k j Hj. apply Hm in Hj as (Hj & Hn). rewrite Eg by auto.
    destruct (s_lvn _ _ _ _ _ _ _ S k j Hj) as (A & B & D). auto.
  - rewrite Hh. destruct (_ && _); [apply erase_heap_nd|]; apply S.
  - intros H. apply (s_h0 _ _ _ _ _ _ _ S). apply in_map_iff in H as ((p, c) & E & H). cbn in E; subst p.
    apply Hsub in H. now apply (in_map fst) in H.
  - intros j Hj He Hr. apply Ha in Hj as (Hj & Hn). rewrite Eg in * by auto.
    destruct (s_hown _ _ _ _ _ _ _ S j Hj He Hr) as (A & c & B & D). split; [exact A|]. exists c.
    split; [|exact D]. rewrite Hh. destruct (is_evaluated (f i)) eqn:Ei; [|exact B].
    destruct (v_retain (f i)) eqn:Er; [exact B|]. cbn. apply erase_heap_other; auto.
    intros E. apply Hn. now apply (s_hinj _ _ _ _ _ _ _ S).
  - intros j k Hj Hje Hjr Hk Hke Hkr. apply Ha in Hj as (Hj & Hn). apply Ha in Hk as (Hk & Hn').
    rewrite Eg in * by auto. rewrite (Eg k) in * by auto. now apply (s_hinj _ _ _ _ _ _ _ S).
  - intros p Hp. apply in_map_iff in Hp as ((p', c) & E & Hp). cbn in E; subst p'.
    pose proof (Hsub _ _ Hp) as Hp'. apply (in_map fst) in Hp'. cbn in Hp'.
    destruct (s_hall _ _ _ _ _ _ _ S p Hp') as [|(j & A & B & D & Hl)]; [auto|right]. exists j.
    assert (j <> i).
    { intros ->. rewrite B, D in Hh. cbn in Hh. rewrite Hl in Hh.
      apply (erase_heap_not p h); [apply S|]. rewrite <- Hh. now apply (in_map fst) in Hp. }
    rewrite Eg by auto. auto.
  - intros j Hj. apply Ha in Hj as (Hj & Hn). rewrite Eg by auto. now apply (s_scope _ _ _ _ _ _ _ S).
  - apply S.
  - apply S.
Qed.

Lemma lvn_drop_spec f al m h hx ts ctr s i :
  stat f al m h hx ts ctr -> lvn s = m ->
  let s' := lvn_drop s i (f i) in
  (exists m', s' = with_lvn s m') /\ NoDup (map fst (lvn s')) /\
  (forall k j, In (k, j) (lvn s') -> In (k, j) m /\ j <> i) /\
  (forall k j, In (k, j) m -> j <> i -> In (k, j) (lvn s')).
Proof.
  intros S E. cbn zeta. unfold lvn_drop. rewrite E.
  assert (W : s = with_lvn s m) by (rewrite <- E; now destruct s).
  destruct (find_lvn (key_of (f i)) m) as [j|] eqn:Ef.
  - destruct (N.eqb_spec j i) as [->|Hn].
    + split; [eexists; reflexivity|]. cbn [lvn with_lvn]. split; [apply erase_lvn_nd, S|]. split.
      * intros k j H. split; [eapply erase_lvn_in; eauto|]. intros ->.
        apply (erase_lvn_not (key_of (f i)) m); [apply S|].
        pose proof (erase_lvn_in _ _ _ _ H) as H'. apply (s_lvn _ _ _ _ _ _ _ S) in H' as (_ & _ & <-).
        now apply (in_map fst) in H.
      * intros k j H Hn. apply erase_lvn_other; auto. intros ->. apply Hn.
        apply (in_find_lvn _ _ _ (s_lnd _ _ _ _ _ _ _ S)) in H. congruence.
    + split; [now exists m|]. rewrite E. split; [apply S|]. split; [|auto].
      intros k j' H. split; auto. intros ->.
      pose proof (s_lvn _ _ _ _ _ _ _ S _ _ H) as (_ & _ & <-).
      apply (in_find_lvn _ _ _ (s_lnd _ _ _ _ _ _ _ S)) in H. congruence.
  - split; [now exists m|]. rewrite E. split; [apply S|]. split; [|auto].
    intros k j' H. split; auto. intros ->.
    pose proof (s_lvn _ _ _ _ _ _ _ S _ _ H) as (_ & _ & <-).
    apply (in_find_lvn _ _ _ (s_lnd _ _ _ _ _ _ _ S)) in H. congruence.
Qed.

Definition nalloc (al : N -> bool) (n : nat) : N := sumn (fun k => if al k then 1 else 0) n.

Lemma V_eq s s' : vars s' = vars s -> V s' = V s.
Proof. intros E. unfold V. now rewrite E. Qed.

Lemma free1_ok s al own ownse todo hx i :
  INV s al own ownse (i :: todo) hx ->
  exists s1 s2 u,
    (if is_evaluated (V s i) then if v_retain (V s i) then Some s else mem_free s (v_lit (V s i))
     else Some (lvn_drop s i (V s i))) = Some s1 /\
    vset s1 i (set_counter (V s i) (u32 (v_counter (V s i) + 1))) = Some s2 /\
    fs_push i (unused s2) = Some u /\
    INV (with_unused s2 u) (fupd al i false) (fun j => own j + cnt (V s i) j)
        (fun j => ownse j + cnt_se (V s i) j) todo hx /\
    shrinks s al (with_unused s2 u) (fupd al i false).
Proof.
  intros I. pose proof (I_cnt _ _ _ _ _ _ I) as C. pose proof (I_stat _ _ _ _ _ _ I) as S.
  destruct (c_todo _ _ _ _ _ _ C i (or_introl eq_refl)) as (Hi & Hrc & Hse).
  pose proof (al_range _ _ _ _ _ _ _ I Hi) as Hr.
  assert (P1 : exists s1 m' h',
    (if is_evaluated (V s i) then if v_retain (V s i) then Some s else mem_free s (v_lit (V s i))
     else Some (lvn_drop s i (V s i))) = Some s1 /\
    s1 = mkSt (vars s) (unused s) m' (tscope s) (sctr s) h' /\
    NoDup (map fst m') /\ (forall k j, In (k, j) m' -> In (k, j) (lvn s) /\ j <> i) /\
    (forall k j, In (k, j) (lvn s) -> j <> i -> In (k, j) m') /\
    h' = (if is_evaluated (V s i) && negb (v_retain (V s i)) then erase_heap (v_lit (V s i)) (heap s) else heap s)).
  { assert (Hev : is_evaluated (V s i) = true -> forall k j, In (k, j) (lvn s) -> j <> i).
    { intros He k j H ->. apply (s_lvn _ _ _ _ _ _ _ S) in H. intuition congruence. }
    destruct (is_evaluated (V s i)) eqn:Ee.
    - destruct (v_retain (V s i)) eqn:Er.
      + exists s, (lvn s), (heap s). split; [reflexivity|]. split; [now destruct s|]. split; [apply S|].
        split; [|split]; eauto.
      + destruct (s_hown _ _ _ _ _ _ _ S i Hi Ee Er) as (_ & c & Hc & _).
        assert (v_lit (V s i) <> 0).
        { intros E. apply (s_h0 _ _ _ _ _ _ _ S). rewrite <- E. now apply (in_map fst) in Hc. }
        unfold mem_free. destruct (N.eqb_spec (v_lit (V s i)) 0); [congruence|].
        rewrite (in_find_heap _ _ _ (s_hnd _ _ _ _ _ _ _ S) Hc). cbn [bind].
        eexists _, (lvn s), _. split; [reflexivity|]. split; [reflexivity|]. split; [apply S|].
        split; [|split]; eauto.
    - destruct (lvn_drop_spec _ _ _ _ _ _ _ s i S eq_refl) as ((m' & E) & A & B & D).
      rewrite E in *. cbn [lvn with_lvn] in *. eexists _, m', (heap s). split; [reflexivity|].
      split; [reflexivity|]. auto. }
  destruct P1 as (s1 & m' & h' & E1 & Es1 & Nm & Hm & Hm' & Hh).
  assert (Hsz : i < sz s1) by (rewrite Es1; unfold sz in *; cbn; lia).
  destruct (vset_spec s1 i (set_counter (V s i) (u32 (v_counter (V s i) + 1))) Hsz)
    as (s2 & E2 & EV & EL & EU & Elv & Ets & Ect & Eh).
  assert (EV1 : V s1 = V s) by (apply V_eq; now rewrite Es1).
  rewrite EV1 in EV. rewrite Es1 in EL, EU, Elv, Ets, Ect, Eh. cbn in EL, EU, Elv, Ets, Ect, Eh.
  destruct (I_slots _ _ _ _ _ _ I) as (F & HF & HFin).
  destruct (fs_push_rel (unused s2) F i) as (u & E3 & HF').
  { now rewrite EU. }
  { pose proof (I_len _ _ _ _ _ _ I). lia. }
  { rewrite HFin. intros (_ & ?). congruence. }
  exists s1, s2, u. split; [exact E1|]. split; [exact E2|]. split; [exact E3|].
  assert (Hu : forall k, al k = true -> ~ In i (v_dep (V s k))) by (intros k Hk; eapply unreferenced; eauto).
  assert (Vi : V s2 i = set_counter (V s i) (u32 (v_counter (V s i) + 1))) by (rewrite EV; apply fupd_eq).
  assert (Vj : forall j, j <> i -> V s2 j = V s j) by (intros; rewrite EV; now apply fupd_ne).
  change (V (with_unused s2 u)) with (V s2).
  split.
  - constructor.
    + cbn [vars with_unused]. rewrite EL. change (V (with_unused s2 u)) with (V s2).
      eapply cnts_free1; eauto; try (rewrite Vi; auto; fail).
      intros d Hd Hd0. eapply (s_dep _ _ _ _ _ _ _ S); eauto.
    + cbn [lvn heap tscope sctr with_unused]. rewrite Elv, Eh, Ets, Ect.
      change (V (with_unused s2 u)) with (V s2). eapply stat_free1; eauto.
    + exists (sp_insert i F). split; [exact HF'|]. intros j. rewrite sp_insert_In, HFin.
      unfold sz. cbn [vars with_unused]. rewrite EL. fold (sz s). unfold fupd.
      destruct (N.eqb_spec j i) as [->|]; intuition congruence.
    + unfold sz. cbn [vars with_unused]. rewrite EL. apply I.
  - constructor; cbn [vars lvn heap tscope sctr with_unused]; try assumption.
    + intros j. unfold fupd. destruct (N.eqb_spec j i); [easy|auto].
    + intros j Hj. change (V (with_unused s2 u)) with (V s2). unfold fupd in Hj.
      destruct (N.eqb_spec j i); [easy|]. now rewrite Vj.
    + intros j. change (V (with_unused s2 u)) with (V s2). unfold fupd. destruct (N.eqb_spec j i) as [->|].
      * rewrite Vi, Hi. reflexivity.
      * rewrite Vj by auto. now destruct (al j).
    + intros k j H. rewrite Elv in H. now apply Hm.
    + intros k j H Hj. rewrite Elv. apply Hm'; auto. intros ->. unfold fupd in Hj. now rewrite N.eqb_refl in Hj.
    + intros p c. rewrite Eh, Hh. destruct (_ && _); auto. apply erase_heap_in.
Qed.

Lemma nalloc_free al n i : i < N.of_nat n -> al i = true -> nalloc (fupd al i false) n + 1 = nalloc al n.
Proof.
  intros Hi Ha. unfold nalloc.
  pose proof (sumn_upd (fun k => if fupd al i false k then 1 else 0) (fun k => if al k then 1 else 0) i n Hi) as E.
  cbn beta in E. rewrite fupd_eq, Ha in E. rewrite N.add_0_r in E. apply E. intros. now rewrite fupd_ne.
Qed.

Lemma var_free_ok fuel : forall s al own ownse todo hx i,
  INV s al own ownse (i :: todo) hx -> nalloc al (length (vars s)) <= N.of_nat fuel ->
  exists s' al', var_free fuel s i todo = Some s' /\ INV s' al' own ownse [] hx /\ shrinks s al s' al'.
Proof.
  induction fuel as [|fuel IH]; intros s al own ownse todo hx i I Hf.
  - exfalso. destruct (c_todo _ _ _ _ _ _ (I_cnt _ _ _ _ _ _ I) i (or_introl eq_refl)) as (Hi & _).
    pose proof (al_range _ _ _ _ _ _ _ I Hi) as Hr. unfold sz in Hr.
    pose proof (nalloc_free al _ i (proj2 Hr) Hi). lia.
  - destruct (c_todo _ _ _ _ _ _ (I_cnt _ _ _ _ _ _ I) i (or_introl eq_refl)) as (Hi & _).
    pose proof (al_range _ _ _ _ _ _ _ I Hi) as Hr.
    destruct (free1_ok _ _ _ _ _ _ _ I) as (s1 & s2 & u & E1 & E2 & E3 & I2 & Sh).
    cbn [var_free]. rewrite vget_V by lia. cbn [bind]. rewrite E1. cbn [bind]. rewrite E2. cbn [bind].
    rewrite E3. cbn [bind].
    assert (Hn : nalloc (fupd al i false) (length (vars (with_unused s2 u))) <= N.of_nat fuel).
    { rewrite (sh_len _ _ _ _ Sh). pose proof (nalloc_free al _ i (proj2 Hr) Hi). lia. }
    set (s3 := with_unused s2 u) in *.
    assert (P : exists s4 zs,
       (if v_wptr (V s i) then let? d := nth_error (v_dep (V s i)) 3 in dec_dep_se s3 d
        else dec_deps s3 (v_dep (V s i))) = Some (s4, zs) /\
       INV s4 (fupd al i false) own ownse (zs ++ todo) hx /\ counts_only s3 s4).
    { destruct (v_wptr (V s i)) eqn:W.
      - destruct (s_wp _ _ _ _ _ _ _ (I_stat _ _ _ _ _ _ I) i Hi W) as (_ & d & Hd & Hd0 & _).
        rewrite Hd. cbn [nth_error bind]. apply dec_dep_se_ok.
        eapply INV_own; [| |exact I2]; intros j Hj; unfold cnt, cnt_se, plus1; rewrite W; [lia|].
        rewrite Hd, !occ_cons, occ_nil. destruct (N.eqb_spec j 0); [congruence|]. lia.
      - apply dec_deps_ok. eapply INV_own; [| |exact I2]; intros j Hj; unfold cnt, cnt_se, plusl; rewrite W; lia. }
    destruct P as (s4 & zs & E4 & I4 & CO). rewrite E4. cbn [bind].
    assert (Sh4 : shrinks s al s4 (fupd al i false)).
    { eapply shrinks_trans; [exact Sh|]. now apply shrinks_counts. }
    assert (Hn4 : nalloc (fupd al i false) (length (vars s4)) <= N.of_nat fuel) by (rewrite (co_len _ _ CO); exact Hn).
    destruct zs as [|z zs].
    + destruct todo as [|z todo].
      * exists s4, (fupd al i false). auto.
      * cbn [app] in I4. destruct (IH s4 _ _ _ _ _ _ I4 Hn4) as (s5 & al5 & E5 & I5 & Sh5).
        exists s5, al5. split; [exact E5|]. split; [exact I5|]. eapply shrinks_trans; eauto.
    + assert (I4' : INV s4 (fupd al i false) own ownse (z :: rev zs ++ todo) hx).
      { eapply INV_perm; [|exact I4]. cbn [app]. constructor. apply Permutation_app_tail, Permutation_rev. }
      destruct (IH s4 _ _ _ _ _ _ I4' Hn4) as (s5 & al5 & E5 & I5 & Sh5).
      exists s5, al5. split; [exact E5|]. split; [exact I5|]. eapply shrinks_trans; eauto.
Qed.

Lemma nalloc_le al n : nalloc al n <= N.of_nat n.
Proof.
  pose proof (sumn_le (fun k => if al k then 1 else 0) 1 n) as H. unfold nalloc.
  assert (sumn (fun k : N => if al k then 1 else 0) n <= 1 * N.of_nat n); [|lia].
  apply H. intros j _. destruct (al j); lia.
Qed.

(** ** dec_ref *)
Lemma dec_ref_ok s al own ownse hx i :
  INV s al (plus1 own i) ownse [] hx ->
  exists s' al', dec_ref s i = Some s' /\ INV s' al' own ownse [] hx /\ shrinks s al s' al'.
Proof.
  intros I. unfold dec_ref. destruct (N.eqb_spec i 0) as [->|Hd].
  - exists s, al. split; [reflexivity|]. split; [|apply shrinks_counts, counts_only_refl].
    eapply INV_own; [| |exact I]; auto. intros j Hj. unfold plus1. destruct (N.eqb_spec j 0); [congruence|lia].
  - destruct (al i) eqn:Ha.
    2: { destruct (c_own0 _ _ _ _ _ _ (I_cnt _ _ _ _ _ _ I) i Hd Ha) as (E & _).
         unfold plus1 in E. rewrite N.eqb_refl in E. lia. }
    destruct (al_jitc _ _ _ _ _ _ I Ha) as (J & _). rewrite J. cbn [bind].
    pose proof (al_range _ _ _ _ _ _ _ I Ha) as Hr.
    destruct (dec_dep_ok _ _ _ _ _ _ _ I) as (s1 & zs & E1 & I1 & CO).
    unfold dec_dep in E1. destruct (N.eqb_spec i 0); [congruence|]. rewrite vget_V in E1 by lia. cbn [bind] in E1.
    destruct (v_rc (V s i) =? 0); [discriminate|].
    destruct (vset s i (set_rc (V s i) (v_rc (V s i) - 1))) as [s1'|]; [|discriminate].
    cbn [bind] in E1 |- *. injection E1 as -> <-. destruct (referenced _).
    + exists s1, al. split; [reflexivity|]. split; [exact I1|]. now apply shrinks_counts.
    + destruct (var_free_ok (S (length (vars s1))) s1 al own ownse [] hx i I1) as (s2 & al2 & E2 & I2 & Sh).
      { pose proof (nalloc_le al (length (vars s1))). lia. }
      exists s2, al2. split; [exact E2|]. split; [exact I2|]. eapply shrinks_trans; [|exact Sh].
      now apply shrinks_counts.
Qed.
Lemma dec_ref_se_ok s al own ownse hx i :
  INV s al own (plus1 ownse i) [] hx ->
  exists s' al', dec_ref_se s i = Some s' /\ INV s' al' own ownse [] hx /\ shrinks s al s' al'.
Proof.
  intros I. unfold dec_ref_se. destruct (N.eqb_spec i 0) as [->|Hd].
  - exists s, al. split; [reflexivity|]. split; [|apply shrinks_counts, counts_only_refl].
    eapply INV_own; [| |exact I]; auto. intros j Hj. unfold plus1. destruct (N.eqb_spec j 0); [congruence|lia].
  - destruct (al i) eqn:Ha.
    2: { destruct (c_own0 _ _ _ _ _ _ (I_cnt _ _ _ _ _ _ I) i Hd Ha) as (_ & E).
         unfold plus1 in E. rewrite N.eqb_refl in E. lia. }
    destruct (al_jitc _ _ _ _ _ _ I Ha) as (J & _). rewrite J. cbn [bind].
    pose proof (al_range _ _ _ _ _ _ _ I Ha) as Hr.
    destruct (dec_dep_se_ok _ _ _ _ _ _ _ I) as (s1 & zs & E1 & I1 & CO).
    unfold dec_dep_se in E1. destruct (N.eqb_spec i 0); [congruence|]. rewrite vget_V in E1 by lia. cbn [bind] in E1.
    destruct (v_se (V s i) =? 0); [discriminate|].
    destruct (vset s i (set_se (V s i) (v_se (V s i) - 1))) as [s1'|]; [|discriminate].
    cbn [bind] in E1 |- *. injection E1 as -> <-. destruct (referenced _).
    + exists s1, al. split; [reflexivity|]. split; [exact I1|]. now apply shrinks_counts.
    + destruct (var_free_ok (S (length (vars s1))) s1 al own ownse [] hx i I1) as (s2 & al2 & E2 & I2 & Sh).
      { pose proof (nalloc_le al (length (vars s1))). lia. }
      exists s2, al2. split; [exact E2|]. split; [exact I2|]. eapply shrinks_trans; [|exact Sh].
      now apply shrinks_counts.
Qed.

Lemma dec_refs_ok ds : forall s al own ownse hx,
  INV s al (plusl own ds) ownse [] hx ->
  exists s' al', dec_refs s ds = Some s' /\ INV s' al' own ownse [] hx /\ shrinks s al s' al'.
Proof.
  induction ds as [|d r IH]; intros s al own ownse hx I; cbn [dec_refs].
  - exists s, al. split; [reflexivity|]. split; [|apply shrinks_counts, counts_only_refl].
    eapply INV_own; [| |exact I]; auto. intros j Hj. unfold plusl. rewrite occ_nil. lia.
  - destruct (dec_ref_ok s al (plusl own r) ownse hx d) as (s1 & al1 & E1 & I1 & S1).
    { eapply INV_own; [| |exact I]; auto. intros j Hj. unfold plus1, plusl. rewrite occ_cons. lia. }
    rewrite E1. cbn [bind]. destruct (IH _ _ _ _ _ I1) as (s2 & al2 & E2 & I2 & S2).
    exists s2, al2. split; [exact E2|]. split; [exact I2|]. eapply shrinks_trans; eauto.
Qed.

(** A decrement that leaves another reference in place destroys nothing. *)
Lemma dec_ref_keep s al own ownse hx i :
  INV s al (plus1 own i) ownse [] hx -> i <> 0 -> 0 < own i + refs (V s) al (length (vars s)) i ->
  exists s', dec_ref s i = Some s' /\ INV s' al own ownse [] hx /\ counts_only s s' /\
             V s' i = set_rc (V s i) (v_rc (V s i) - 1) /\ forall j, j <> i -> V s' j = V s j.
Proof.
  intros I Hd Hp. unfold dec_ref. destruct (N.eqb_spec i 0); [congruence|].
  destruct (al i) eqn:Ha.
  2: { destruct (c_own0 _ _ _ _ _ _ (I_cnt _ _ _ _ _ _ I) i Hd Ha) as (E & _).
       unfold plus1 in E. rewrite N.eqb_refl in E. lia. }
  destruct (al_jitc _ _ _ _ _ _ I Ha) as (J & _). rewrite J. cbn [bind].
  pose proof (al_range _ _ _ _ _ _ _ I Ha) as Hr.
  pose proof (c_rc _ _ _ _ _ _ (I_cnt _ _ _ _ _ _ I) i Ha) as Erc. unfold plus1 in Erc. rewrite N.eqb_refl in Erc.
  destruct (dec_dep_ok _ _ _ _ _ _ _ I) as (s1 & zs & E1 & I1 & CO).
  unfold dec_dep in E1. destruct (N.eqb_spec i 0); [congruence|]. rewrite vget_V in E1 by lia. cbn [bind] in E1.
  destruct (v_rc (V s i) =? 0); [discriminate|].
  destruct (vset_spec s i (set_rc (V s i) (v_rc (V s i) - 1)) (proj2 Hr)) as (s1' & Ev & EV & _).
  rewrite Ev in E1 |- *. cbn [bind] in E1 |- *. injection E1 as -> <-.
  assert (R : referenced (set_rc (V s i) (v_rc (V s i) - 1)) = true).
  { unfold referenced. cbn. destruct (N.ltb_spec 0 (v_rc (V s i) - 1)); [reflexivity|lia]. }
  rewrite R in *. exists s1. split; [reflexivity|]. split; [exact I1|]. split; [exact CO|].
  rewrite EV, fupd_eq. split; [reflexivity|]. intros. rewrite EV. now apply fupd_ne.
Qed.
Lemma dec_ref_se_keep s al own ownse hx i :
  INV s al own (plus1 ownse i) [] hx -> i <> 0 -> 0 < ownse i + refs_se (V s) al (length (vars s)) i ->
  exists s', dec_ref_se s i = Some s' /\ INV s' al own ownse [] hx /\ counts_only s s' .
Proof.
  intros I Hd Hp. unfold dec_ref_se. destruct (N.eqb_spec i 0); [congruence|].
  destruct (al i) eqn:Ha.
  2: { destruct (c_own0 _ _ _ _ _ _ (I_cnt _ _ _ _ _ _ I) i Hd Ha) as (_ & E).
       unfold plus1 in E. rewrite N.eqb_refl in E. lia. }
  destruct (al_jitc _ _ _ _ _ _ I Ha) as (J & _). rewrite J. cbn [bind].
  pose proof (al_range _ _ _ _ _ _ _ I Ha) as Hr.
  pose proof (c_se _ _ _ _ _ _ (I_cnt _ _ _ _ _ _ I) i Ha) as Erc. unfold plus1 in Erc. rewrite N.eqb_refl in Erc.
  destruct (dec_dep_se_ok _ _ _ _ _ _ _ I) as (s1 & zs & E1 & I1 & CO).
  unfold dec_dep_se in E1. destruct (N.eqb_spec i 0); [congruence|]. rewrite vget_V in E1 by lia. cbn [bind] in E1.
  destruct (v_se (V s i) =? 0); [discriminate|].
  destruct (vset s i (set_se (V s i) (v_se (V s i) - 1))) as [s1'|]; [|discriminate].
  cbn [bind] in E1 |- *. injection E1 as -> <-.
  assert (R : referenced (set_se (V s i) (v_se (V s i) - 1)) = true).
  { unfold referenced. cbn. destruct (N.ltb_spec 0 (v_se (V s i) - 1)); [apply orb_true_r|lia]. }
  rewrite R in *. exists s1. auto.
Qed.

Lemma dec_refs_keep ds : forall s al own ownse hx,
  INV s al (plusl own ds) ownse [] hx ->
  (forall d, In d ds -> d <> 0 -> 0 < refs (V s) al (length (vars s)) d) ->
  exists s', dec_refs s ds = Some s' /\ INV s' al own ownse [] hx /\ counts_only s s'.
Proof.
  induction ds as [|d r IH]; intros s al own ownse hx I Hp; cbn [dec_refs].
  - exists s. split; [reflexivity|]. split; [|apply counts_only_refl].
    eapply INV_own; [| |exact I]; auto. intros j Hj. unfold plusl. rewrite occ_nil. lia.
  - assert (P : exists s1, dec_ref s d = Some s1 /\ INV s1 al (plusl own r) ownse [] hx /\ counts_only s s1).
    { destruct (N.eq_dec d 0) as [->|Hd].
      - exists s. split; [reflexivity|]. split; [|apply counts_only_refl].
        eapply INV_own; [| |exact I]; auto. intros j Hj. unfold plusl. rewrite occ_cons.
        destruct (N.eqb_spec j 0); [congruence|lia].
      - destruct (dec_ref_keep s al (plusl own r) ownse hx d) as (s1 & E1 & I1 & CO & _).
        + eapply INV_own; [| |exact I]; auto. intros j Hj. unfold plus1, plusl. rewrite occ_cons. lia.
        + exact Hd.
        + specialize (Hp d (or_introl eq_refl) Hd). lia.
        + exists s1. auto. }
    destruct P as (s1 & E1 & I1 & CO1). rewrite E1. cbn [bind].
    destruct (IH s1 al own ownse hx I1) as (s2 & E2 & I2 & CO2).
    { intros x Hx Hx0. rewrite (co_len _ _ CO1). rewrite (refs_ext (V s1) (V s)); [|intros; apply CO1].
      apply Hp; auto. now right. }
    exists s2. split; [exact E2|]. split; [exact I2|]. eapply counts_only_trans; eauto.
Qed.
