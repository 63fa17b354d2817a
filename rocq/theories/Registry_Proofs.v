From Verif Require Import Base FreeSlots_Model FreeSlots_Spec FreeSlots_Proofs Registry_Model Registry_Spec.
Local Open Scope N_scope.

Lemma key_eqb_spec a b : key_eqb a b = true <-> a = b.
Proof.
  unfold key_eqb. rewrite andb_true_iff, !N.eqb_eq. destruct a, b; cbn.
  split; [intros [-> ->]; reflexivity|intros [= -> ->]; auto].
Qed.

Lemma find_key_In k l d : find_key k l = Some d -> In (k, d) l.
Proof.
  induction l as [|[k' d'] r IH]; cbn [find_key]; [discriminate|].
  destruct (key_eqb k' k) eqn:E.
  - intros [= ->]. apply key_eqb_spec in E. subst. now left.
  - right; auto.
Qed.
Lemma find_key_None k l : find_key k l = None -> forall d, ~ In (k, d) l.
Proof.
  induction l as [|[k' d'] r IH]; cbn [find_key]; [auto|].
  destruct (key_eqb k' k) eqn:E; [discriminate|].
  intros H d [[= -> ->]|Hin].
  - rewrite (proj2 (key_eqb_spec k k) eq_refl) in E. discriminate.
  - eapply IH; eauto.
Qed.
Lemma find_ptr_In p l x : find_ptr p l = Some x -> In (p, x) l.
Proof.
  induction l as [|[q y] r IH]; cbn [find_ptr]; [discriminate|].
  destruct (N.eqb_spec q p) as [->|]; [intros [= ->]; now left|right; auto].
Qed.
Lemma find_ptr_None p l : find_ptr p l = None -> forall x, ~ In (p, x) l.
Proof.
  induction l as [|[q y] r IH]; cbn [find_ptr]; [auto|].
  destruct (N.eqb_spec q p) as [->|]; [discriminate|].
  intros H x [[= -> ->]|Hin]; [congruence|eapply IH; eauto].
Qed.

Lemma NoDup_fst_inj {A B} (l : list (A * B)) p x y :
  NoDup (map fst l) -> In (p, x) l -> In (p, y) l -> x = y.
Proof.
  induction l as [|[q z] l IH]; [intros _ []|]. cbn [map fst]. inversion 1 as [|? ? Hni Hn]; subst.
  intros [E1|H1] [E2|H2].
  - congruence.
  - exfalso. apply Hni. injection E1 as -> ->. change p with (fst (p, y)). now apply in_map.
  - exfalso. apply Hni. injection E2 as -> ->. change p with (fst (p, x)). now apply in_map.
  - auto.
Qed.
Lemma NoDup_snd_inj {A B} (l : list (A * B)) p x y :
  NoDup (map snd l) -> In (x, p) l -> In (y, p) l -> x = y.
Proof.
  induction l as [|[q z] l IH]; [intros _ []|]. cbn [map snd]. inversion 1 as [|? ? Hni Hn]; subst.
  intros [E1|H1] [E2|H2].
  - congruence.
  - exfalso. apply Hni. injection E1 as -> ->. change p with (snd (y, p)). now apply in_map.
  - exfalso. apply Hni. injection E2 as -> ->. change p with (snd (x, p)). now apply in_map.
  - auto.
Qed.
Lemma find_key_complete k l d : NoDup (map fst l) -> In (k, d) l -> find_key k l = Some d.
Proof.
  intros Hn Hin. destruct (find_key k l) as [d'|] eqn:E.
  - apply find_key_In in E. f_equal. eapply NoDup_fst_inj; eauto.
  - exfalso. eapply find_key_None; eauto.
Qed.
Lemma find_ptr_complete p l x : NoDup (map fst l) -> In (p, x) l -> find_ptr p l = Some x.
Proof.
  intros Hn Hin. destruct (find_ptr p l) as [d'|] eqn:E.
  - apply find_ptr_In in E. f_equal. eapply NoDup_fst_inj; eauto.
  - exfalso. eapply find_ptr_None; eauto.
Qed.

Lemma in_fst {A B} p (x : B) (l : list (A * B)) : In (p, x) l -> In p (map fst l).
Proof. intros H. change p with (fst (p, x)). now apply in_map. Qed.
Lemma fst_in {A B} p (l : list (A * B)) : In p (map fst l) -> exists x, In (p, x) l.
Proof. intros H. apply in_map_iff in H as ([q x] & E & H). cbn in E. subst. eauto. Qed.

Lemma erase_ptr_In p l q y : NoDup (map fst l) ->
  (In (q, y) (erase_ptr p l) <-> q <> p /\ In (q, y) l).
Proof.
  induction l as [|[r x] l IH]; cbn [erase_ptr map fst]; [cbn; tauto|].
  inversion 1 as [|? ? Hni Hn]; subst. destruct (N.eqb_spec r p) as [->|Hne].
  - cbn [In]. split.
    + intros Hin. split; [|auto]. intros ->. apply Hni. now apply in_fst in Hin.
    + intros [Hq [[= -> ->]|Hin]]; [congruence|auto].
  - cbn [In]. rewrite IH by auto. split.
    + intros [[= <- <-]|[A B]]; auto.
    + intros [A [B|B]]; auto.
Qed.
Lemma erase_ptr_nodup p l : NoDup (map fst l) -> NoDup (map fst (erase_ptr p l)).
Proof.
  induction l as [|[r x] l IH]; cbn [erase_ptr map fst]; [auto|].
  intros H. pose proof H as H0. inversion H as [|? ? Hni Hn]; subst.
  destruct (N.eqb_spec r p); [auto|]. cbn [map fst]. constructor; [|auto].
  intros Hin. apply Hni. apply fst_in in Hin as [y Hy].
  apply erase_ptr_In in Hy; [|auto]. destruct Hy as [_ Hy]. now apply in_fst in Hy.
Qed.

(** ** Domain invariant; [l] is the list of free indices. *)
Record DI (n : N) (D : domain) (l : list N) : Prop := {
  di_fs : fs_rel (d_free D) l;
  di_free : forall i, In i l <-> nth_error (d_fwd D) (N.to_nat i) = Some (0, false);
  di_ent : forall i e, nth_error (d_fwd D) (N.to_nat i) = Some e ->
             e = (0, false) \/ (fst e <> 0 /\ snd e = true);
  di_len : N.of_nat (length (d_fwd D)) <= n;
  di_bnd : d_bound D <= N.of_nat (length (d_fwd D));
  di_act : forall i p, nth_error (d_fwd D) (N.to_nat i) = Some (p, true) -> i < d_bound D;
  di_top : d_bound D = 0 \/ exists p, nth_error (d_fwd D) (N.to_nat (d_bound D - 1)) = Some (p, true) }.

Lemma DI_new n : DI n d_new [].
Proof.
  split; cbn [d_new d_free d_fwd d_bound].
  - apply fs_rel_init.
  - intros i. split; [intros []|]. now destruct (N.to_nat i).
  - intros i e. now destruct (N.to_nat i).
  - cbn; lia.
  - cbn; lia.
  - intros i p. now destruct (N.to_nat i).
  - now left.
Qed.

Lemma DI_mono n m D l : n <= m -> DI n D l -> DI m D l.
Proof. intros Hm [A B C D' E F G]. split; auto. lia. Qed.

Lemma nth_error_app_last {A} (l : list A) x i :
  nth_error (l ++ [x]) i = if (i =? length l)%nat then Some x else nth_error l i.
Proof.
  destruct (Nat.eqb_spec i (length l)) as [->|Hne].
  - rewrite nth_error_app2, Nat.sub_diag by lia. reflexivity.
  - destruct (Nat.lt_ge_cases i (length l)).
    + now rewrite nth_error_app1.
    + rewrite (proj2 (nth_error_None l i)) by lia.
      apply nth_error_None. rewrite app_length. cbn. lia.
Qed.

Lemma nth_lt {A} (l : list A) i x : nth_error l (N.to_nat i) = Some x -> i < N.of_nat (length l).
Proof. intros H. assert (N.to_nat i < length l)%nat by (apply nth_error_Some; congruence). lia. Qed.

Lemma fs_empty_rel s l : fs_rel s l -> (fs_empty s = true <-> l = []).
Proof.
  intros H. unfold fs_empty. rewrite N.eqb_eq. pose proof (rel_len _ _ H).
  rewrite (r_count _ _ H). destruct l; cbn [length]; split; try congruence; try lia. 
Qed.

(** Allocating an index in a domain. *)
Lemma alloc_ok n D l p : DI n D l -> n + 1 < 2 ^ 32 - 1 -> p <> 0 ->
  exists i fw fs,
    (if fs_empty (d_free D) then
       Some (u32 (N.of_nat (length (d_fwd D))), d_fwd D ++ [(p, true)], d_free D)
     else let? y := fs_pop (d_free D) in
          let? fw := upd (N.to_nat (fst y)) (p, true) (d_fwd D) in
          Some (fst y, fw, snd y)) = Some (i, fw, fs) /\
    i < n + 1 /\
    (forall q, nth_error (d_fwd D) (N.to_nat i) <> Some (q, true)) /\
    (forall m, m < i -> exists q, nth_error (d_fwd D) (N.to_nat m) = Some (q, true)) /\
    (forall j, nth_error fw (N.to_nat j) =
       if j =? i then Some (p, true) else nth_error (d_fwd D) (N.to_nat j)) /\
    exists l', DI (n + 1) (mkD (N.max (d_bound D) (u32 (i + 1))) fw fs) l'.
Proof.
  intros HD Hn Hp. pose proof (di_fs _ _ _ HD) as HF. pose proof (di_len _ _ _ HD) as HL.
  assert (Hact : forall m, m < N.of_nat (length (d_fwd D)) -> ~ In m l ->
            exists q, nth_error (d_fwd D) (N.to_nat m) = Some (q, true)).
  { intros m Hm Hni. destruct (nth_error (d_fwd D) (N.to_nat m)) as [[q a]|] eqn:E.
    - destruct (di_ent _ _ _ HD m _ E) as [[= -> ->]|[_ Ha]].
      + exfalso. apply Hni. now apply (di_free _ _ _ HD).
      + cbn in Ha. subst. eauto.
    - apply nth_error_None in E. lia. }
  destruct l as [|x l].
  - rewrite (proj2 (fs_empty_rel _ _ HF) eq_refl).
    set (L := N.of_nat (length (d_fwd D))) in *.
    rewrite (u32_small L) by lia.
    exists L, (d_fwd D ++ [(p, true)]), (d_free D).
    split; [reflexivity|]. split; [lia|].
    assert (Hnth : forall j, nth_error (d_fwd D ++ [(p, true)]) (N.to_nat j) =
         if j =? L then Some (p, true) else nth_error (d_fwd D) (N.to_nat j)).
    { intros j. rewrite nth_error_app_last. unfold L.
      destruct (Nat.eqb_spec (N.to_nat j) (length (d_fwd D))), (N.eqb_spec j (N.of_nat (length (d_fwd D)))); auto; lia. }
    split. { intros q H. apply nth_lt in H. lia. }
    split. { intros m Hm. apply Hact; [exact Hm|intros []]. }
    split; [exact Hnth|].
    exists []. rewrite (u32_small (L + 1)) by lia. split; cbn [d_free d_fwd d_bound].
    + exact HF.
    + intros i. rewrite Hnth. destruct (N.eqb_spec i L); [split; [intros []|congruence]|].
      apply (di_free _ _ _ HD).
    + intros i e. rewrite Hnth. destruct (N.eqb_spec i L).
      * intros [= <-]. right. auto.
      * apply (di_ent _ _ _ HD).
    + rewrite app_length. cbn. lia.
    + rewrite app_length. cbn. pose proof (di_bnd _ _ _ HD). lia.
    + intros i q. rewrite Hnth. destruct (N.eqb_spec i L); [lia|].
      intros H. apply (di_act _ _ _ HD) in H. lia.
    + right. pose proof (di_bnd _ _ _ HD). fold L in H.
      replace (N.max (d_bound D) (L + 1) - 1) with L by lia.
      exists p. rewrite Hnth, N.eqb_refl. reflexivity.
  - assert (E : fs_empty (d_free D) = false).
    { destruct (fs_empty (d_free D)) eqn:E; auto. apply (fs_empty_rel _ _ HF) in E. discriminate. }
    rewrite E. destruct (fs_pop_rel _ _ _ HF) as (fs' & -> & HF'). cbn [bind fst snd].
    assert (Hx : nth_error (d_fwd D) (N.to_nat x) = Some (0, false)).
    { apply (di_free _ _ _ HD). now left. }
    pose proof (nth_lt _ _ _ Hx) as Hxl.
    unfold upd. rewrite (proj2 (Nat.ltb_lt _ _)) by lia. cbn [bind].
    exists x, (set_nth (N.to_nat x) (p, true) (d_fwd D)), fs'.
    split; [reflexivity|]. split; [lia|].
    assert (Hnth : forall j, nth_error (set_nth (N.to_nat x) (p, true) (d_fwd D)) (N.to_nat j) =
         if j =? x then Some (p, true) else nth_error (d_fwd D) (N.to_nat j)).
    { intros j. destruct (N.eqb_spec j x) as [->|].
      - apply nth_error_set_nth_eq. lia.
      - apply nth_error_set_nth_neq. lia. }
    pose proof (r_sorted _ _ HF) as Hs. inversion Hs as [|? ? Hs' Hlt]; subst.
    rewrite Forall_forall in Hlt.
    split; [congruence|].
    split. { intros m Hm. apply Hact; [lia|]. intros [->|Hin]; [lia|]. specialize (Hlt _ Hin). lia. }
    split; [exact Hnth|].
    exists l. rewrite (u32_small (x + 1)) by lia. split; cbn [d_free d_fwd d_bound].
    + exact HF'.
    + intros i. rewrite Hnth. destruct (N.eqb_spec i x) as [->|Hne].
      * split; [|congruence]. intros Hin. specialize (Hlt _ Hin). lia.
      * rewrite <- (di_free _ _ _ HD). cbn [In]. split; [now right|]. intros [->|]; [congruence|auto].
    + intros i e. rewrite Hnth. destruct (N.eqb_spec i x).
      * intros [= <-]. right. auto.
      * apply (di_ent _ _ _ HD).
    + rewrite set_nth_length. lia.
    + rewrite set_nth_length. pose proof (di_bnd _ _ _ HD). lia.
    + intros i q. rewrite Hnth. destruct (N.eqb_spec i x); [lia|].
      intros H. apply (di_act _ _ _ HD) in H. lia.
    + right. destruct (di_top _ _ _ HD) as [Z|[q Hq]].
      * replace (N.max (d_bound D) (x + 1) - 1) with x by lia.
        exists p. now rewrite Hnth, N.eqb_refl.
      * destruct (N.le_gt_cases (d_bound D) (x + 1)).
        -- replace (N.max (d_bound D) (x + 1) - 1) with x by lia.
           exists p. now rewrite Hnth, N.eqb_refl.
        -- replace (N.max (d_bound D) (x + 1)) with (d_bound D) by lia.
           exists q. rewrite Hnth. destruct (N.eqb_spec (d_bound D - 1) x); [lia|auto].
Qed.

Lemma shrink_ok fw : (forall i e, nth_error fw (N.to_nat i) = Some e -> e = (0, false) \/ (fst e <> 0 /\ snd e = true)) ->
  forall f b, (N.to_nat b <= f)%nat -> b <= N.of_nat (length fw) ->
  (forall i p, nth_error fw (N.to_nat i) = Some (p, true) -> i < b) ->
  exists b', shrink_bound f fw b = Some b' /\ b' <= b /\
    (forall i p, nth_error fw (N.to_nat i) = Some (p, true) -> i < b') /\
    (b' = 0 \/ exists p, nth_error fw (N.to_nat (b' - 1)) = Some (p, true)).
Proof.
  intros Hent. induction f as [|f IH]; intros b Hf Hl Ha; cbn [shrink_bound].
  - exists b. repeat split; auto; lia.
  - destruct (N.eqb_spec b 0) as [->|Hb].
    { exists 0. repeat split; auto; lia. }
    destruct (nth_error fw (N.to_nat (b - 1))) as [[q a]|] eqn:E.
    2:{ apply nth_error_None in E. lia. }
    cbn [bind fst]. destruct (Hent _ _ E) as [[= -> ->]|[Hq Hs]]; cbn [fst snd] in *.
    + rewrite N.eqb_refl. destruct (IH (b - 1)) as (b' & A & B & C); [lia|lia| |].
      * intros i p Hi. pose proof (Ha _ _ Hi). destruct (N.eq_dec i (b - 1)) as [->|]; [congruence|lia].
      * exists b'. split; [exact A|]. split; [lia|exact C].
    + rewrite (proj2 (N.eqb_neq _ _) Hq). subst a. exists b. repeat split; eauto. lia.
Qed.

(** Releasing an index. *)
Lemma dealloc_ok n D l i p : DI n D l -> n < 2 ^ 32 - 1 -> p <> 0 ->
  nth_error (d_fwd D) (N.to_nat i) = Some (p, true) ->
  exists fs b l',
    fs_push i (d_free D) = Some fs /\
    upd (N.to_nat i) (0, false) (d_fwd D) = Some (set_nth (N.to_nat i) (0, false) (d_fwd D)) /\
    (if d_bound D =? u32 (i + 1)
     then shrink_bound (N.to_nat (d_bound D)) (set_nth (N.to_nat i) (0, false) (d_fwd D)) (d_bound D)
     else Some (d_bound D)) = Some b /\
    DI n (mkD b (set_nth (N.to_nat i) (0, false) (d_fwd D)) fs) l' /\
    (forall j, nth_error (set_nth (N.to_nat i) (0, false) (d_fwd D)) (N.to_nat j) =
       if j =? i then Some (0, false) else nth_error (d_fwd D) (N.to_nat j)).
Proof.
  intros HD Hn Hp Hi. pose proof (nth_lt _ _ _ Hi) as Hil. pose proof (di_len _ _ _ HD) as HL.
  pose proof (di_fs _ _ _ HD) as HF. pose proof (di_bnd _ _ _ HD) as HB.
  assert (Hni : ~ In i l).
  { rewrite (di_free _ _ _ HD), Hi. congruence. }
  destruct (fs_push_rel _ _ i HF ltac:(lia) Hni) as (fs & E1 & HF').
  set (fw := set_nth (N.to_nat i) (0, false) (d_fwd D)).
  assert (Hnth : forall j, nth_error fw (N.to_nat j) =
       if j =? i then Some (0, false) else nth_error (d_fwd D) (N.to_nat j)).
  { intros j. unfold fw. destruct (N.eqb_spec j i) as [->|].
    - apply nth_error_set_nth_eq. lia.
    - apply nth_error_set_nth_neq. lia. }
  assert (Hent : forall j e, nth_error fw (N.to_nat j) = Some e -> e = (0, false) \/ (fst e <> 0 /\ snd e = true)).
  { intros j e. rewrite Hnth. destruct (N.eqb_spec j i); [intros [= <-]; now left|apply (di_ent _ _ _ HD)]. }
  assert (Hlen : length fw = length (d_fwd D)) by apply set_nth_length.
  assert (Hact : forall j q, nth_error fw (N.to_nat j) = Some (q, true) -> j < d_bound D).
  { intros j q. rewrite Hnth. destruct (N.eqb_spec j i); [congruence|apply (di_act _ _ _ HD)]. }
  assert (HBB : exists b, (if d_bound D =? u32 (i + 1)
     then shrink_bound (N.to_nat (d_bound D)) fw (d_bound D) else Some (d_bound D)) = Some b /\
     b <= d_bound D /\ (forall j q, nth_error fw (N.to_nat j) = Some (q, true) -> j < b) /\
     (b = 0 \/ exists q, nth_error fw (N.to_nat (b - 1)) = Some (q, true))).
  { rewrite (u32_small (i + 1)) by lia. destruct (N.eqb_spec (d_bound D) (i + 1)) as [Eb|Eb].
    - apply shrink_ok; auto; lia.
    - exists (d_bound D). split; [auto|]. split; [lia|]. split; [auto|].
      destruct (di_top _ _ _ HD) as [Z|[q Hq]]; [now left|]. right. exists q.
      rewrite Hnth. pose proof (di_act _ _ _ HD _ _ Hi). destruct (N.eqb_spec (d_bound D - 1) i); [lia|auto]. }
  destruct HBB as (b & B1 & B2 & B3 & B4).
  exists fs, b, (sp_insert i l). split; [exact E1|].
  split. { unfold upd. rewrite (proj2 (Nat.ltb_lt _ _)) by lia. reflexivity. }
  split; [exact B1|]. split; [|exact Hnth].
  split; cbn [d_free d_fwd d_bound]; auto.
  - intros j. rewrite sp_insert_In, Hnth. destruct (N.eqb_spec j i) as [->|Hne].
    + tauto.
    + rewrite (di_free _ _ _ HD). tauto.
  - rewrite Hlen. exact HL.
  - rewrite Hlen. lia.
Qed.

(** ** Simulation relation *)
(** [n] bounds the lengths of the forward maps, [c] the number of domains. *)
Record RI (n c : N) (r : reg) (s : sreg) : Prop := {
  ri_ids : NoDup (map fst (ids r));
  ri_inj : NoDup (map snd (ids r));
  ri_rng : forall k d, In (k, d) (ids r) -> d < N.of_nat (length (doms r));
  ri_cnt : N.of_nat (length (doms r)) <= c;
  ri_rev : NoDup (map fst (rev r));
  ri_own : forall p d i, In (p, (d, i)) (rev r) -> i <> UMAX -> exists k, In (k, d) (ids r);
  ri_dom : forall d D, dom_get r d = Some D -> exists l, DI n D l;
  ri_fwd : forall p d i, i <> UMAX ->
     (In (p, (d, i)) (rev r) <-> exists D, dom_get r d = Some D /\ nth_error (d_fwd D) (N.to_nat i) = Some (p, true));
  ri_live : forall p k m, In (p, (k, m)) (live s) <->
     exists d i, In (k, d) (ids r) /\ In (p, (d, i)) (rev r) /\ i <> UMAX /\ m = i + 1;
  ri_lnd : NoDup (map fst (live s));
  ri_gone : forall p, In p (gone s) <-> exists d, In (p, (d, UMAX)) (rev r);
  ri_gnd : NoDup (gone s) }.

Arguments ri_ids {n c r s}. Arguments ri_inj {n c r s}. Arguments ri_rng {n c r s}.
Arguments ri_cnt {n c r s}. Arguments ri_rev {n c r s}. Arguments ri_own {n c r s}.
Arguments ri_dom {n c r s}. Arguments ri_fwd {n c r s}. Arguments ri_live {n c r s}.
Arguments ri_lnd {n c r s}. Arguments ri_gone {n c r s}. Arguments ri_gnd {n c r s}.

Lemma dom_get_nil d l : dom_get (mkReg [] [] l) d = None.
Proof. unfold dom_get. cbn. now destruct (N.to_nat d). Qed.

Lemma RI_init : RI 0 0 reg_init (mkS [] []).
Proof.
  unfold reg_init. split; cbn [ids doms rev live gone map].
  - constructor.
  - constructor.
  - intros k d [].
  - cbn. lia.
  - constructor.
  - intros p d i [].
  - intros d D. rewrite dom_get_nil. discriminate.
  - intros p d i _. rewrite dom_get_nil. split; [intros []|intros (D & H & _); discriminate].
  - intros p k m. split; [intros []|intros (d & i & [] & _)].
  - constructor.
  - intros p. split; [intros []|intros (d & [])].
  - constructor.
Qed.

Lemma RI_mono n m c c' r s : n <= m -> c <= c' -> RI n c r s -> RI m c' r s.
Proof.
  intros Hm Hc HR. split; try apply HR.
  - pose proof (ri_cnt HR). lia.
  - intros d D H. destruct (ri_dom HR d D H) as [l Hl]. exists l. eapply DI_mono; eauto.
Qed.

Lemma known_iff n c r s p : RI n c r s -> (known s p <-> exists x, In (p, x) (rev r)).
Proof.
  intros HR. unfold known. split.
  - intros [H|H].
    + apply fst_in in H as [[k m] H]. apply (ri_live HR) in H as (d & i & _ & H & _). eauto.
    + apply (ri_gone HR) in H as [d H]. eauto.
  - intros [[d i] H]. destruct (N.eq_dec i UMAX) as [->|Hne].
    + right. apply (ri_gone HR). eauto.
    + left. destruct (ri_own HR _ _ _ H Hne) as [k Hk].
      apply (in_fst p (k, i + 1)). apply (ri_live HR). exists d, i. auto.
Qed.

(** in_use in terms of the forward map of the domain. *)
Lemma in_use_dom n c r s k d D : RI n c r s -> n < 2 ^ 32 - 1 -> In (k, d) (ids r) -> dom_get r d = Some D ->
  forall m p, In (p, (k, m)) (live s) <-> 0 < m /\ nth_error (d_fwd D) (N.to_nat (m - 1)) = Some (p, true).
Proof.
  intros HR Hn Hk HD m p. destruct (ri_dom HR d D HD) as [l HDI]. split.
  - intros Hp. apply (ri_live HR) in Hp as (d' & i & H1 & H2 & H3 & ->).
    assert (d' = d) by (eapply NoDup_fst_inj; [apply (ri_ids HR)| |]; eauto). subst d'.
    apply (ri_fwd HR) in H2 as (D' & E1 & E2); [|auto].
    split; [lia|]. rewrite HD in E1. injection E1 as <-. now replace (i + 1 - 1) with i by lia.
  - intros (Hm & Hp). apply (ri_live HR). exists d, (m - 1).
    pose proof (nth_lt _ _ _ Hp). pose proof (di_len _ _ _ HDI).
    split; [auto|]. split; [|unfold UMAX; lia].
    apply (ri_fwd HR); [unfold UMAX; lia|]. eauto.
Qed.

Lemma in_use_nokey n c r s k : RI n c r s -> find_key k (ids r) = None -> forall m, ~ in_use s k m.
Proof.
  intros HR E m [p Hp]. apply (ri_live HR) in Hp as (d & i & H & _).
  eapply find_key_None; eauto.
Qed.

Lemma dom_get_some n c r s k d : RI n c r s -> In (k, d) (ids r) -> exists D, dom_get r d = Some D.
Proof.
  intros HR H. apply (ri_rng HR) in H. unfold dom_get.
  destruct (nth_error (doms r) (N.to_nat d)) eqn:E; [eauto|]. apply nth_error_None in E. lia.
Qed.

(** The state with a (possibly new) domain for key [k]. *)
Lemma ensure_dom n c r s k : RI n c r s -> c + 1 < 2 ^ 32 ->
  exists ids' doms' d,
    match find_key k (ids r) with
    | Some d => (ids r, doms r, d)
    | None => ((k, u32 (N.of_nat (length (doms r)))) :: ids r, doms r ++ [d_new],
               u32 (N.of_nat (length (doms r))))
    end = (ids', doms', d) /\ In (k, d) ids' /\
    RI n (c + 1) (mkReg ids' doms' (rev r)) s.
Proof.
  intros HR Hn. pose proof (ri_cnt HR) as Hc.
  destruct (find_key k (ids r)) as [d|] eqn:E.
  - exists (ids r), (doms r), d. split; [reflexivity|]. split; [now apply find_key_In|].
    replace (mkReg (ids r) (doms r) (rev r)) with r by (now destruct r).
    eapply RI_mono; [| |eauto]; lia.
  - rewrite (u32_small (N.of_nat (length (doms r)))) by lia.
    set (d := N.of_nat (length (doms r))) in *.
    eexists _, _, _. split; [reflexivity|]. split; [now left|].
    assert (Hget : forall d', dom_get (mkReg ((k, d) :: ids r) (doms r ++ [d_new]) (rev r)) d' =
       if d' =? d then Some d_new else dom_get r d').
    { intros d'. unfold dom_get. cbn [doms]. rewrite nth_error_app_last. unfold d.
      destruct (Nat.eqb_spec (N.to_nat d') (length (doms r))), (N.eqb_spec d' (N.of_nat (length (doms r)))); auto; lia. }
    assert (Hnd : forall p i, In (p, (d, i)) (rev r) -> i <> UMAX -> False).
    { intros p i H Hi. destruct (ri_own HR _ _ _ H Hi) as [k' Hk'].
      apply (ri_rng HR) in Hk'. lia. }
    split; cbn [ids doms rev].
    + cbn [map fst]. constructor; [|apply (ri_ids HR)]. intros H. apply fst_in in H as [x H].
      eapply find_key_None; eauto.
    + cbn [map snd]. constructor; [|apply (ri_inj HR)]. intros H.
      apply in_map_iff in H as ([k' d'] & Ed & H). cbn in Ed. subst d'. apply (ri_rng HR) in H. lia.
    + intros k' d'. rewrite app_length. cbn. intros [[= <- <-]|H]; [lia|].
      apply (ri_rng HR) in H. lia.
    + rewrite app_length. cbn. lia.
    + apply HR.
    + intros p d' i H Hi. destruct (ri_own HR _ _ _ H Hi) as [k' Hk']. exists k'. now right.
    + intros d' D. rewrite Hget. destruct (N.eqb_spec d' d).
      * intros [= <-]. exists []. apply DI_new.
      * intros H. exact (ri_dom HR _ _ H).
    + intros p d' i Hi. rewrite (ri_fwd HR) by auto. split.
      * intros (D & H1 & H2). exists D. rewrite Hget. destruct (N.eqb_spec d' d) as [->|]; [|auto].
        exfalso. eapply (Hnd p i); [|auto]. apply (ri_fwd HR); eauto.
      * intros (D & H1 & H2). rewrite Hget in H1. destruct (N.eqb_spec d' d) as [->|]; [|eauto].
        injection H1 as <-. cbn in H2. now destruct (N.to_nat i).
    + intros p k' m. rewrite (ri_live HR). split.
      * intros (d' & i & H1 & H2). exists d', i. split; [now right|auto].
      * intros (d' & i & [[= <- <-]|H1] & H2 & H3 & H4).
        -- exfalso. eauto.
        -- exists d', i. auto.
    + apply HR.
    + apply HR.
    + apply HR.
Qed.

Lemma key_of_dom n c r s k1 k2 d : RI n c r s -> In (k1, d) (ids r) -> In (k2, d) (ids r) -> k1 = k2.
Proof. intros HR. apply NoDup_snd_inj. apply (ri_inj HR). Qed.

Lemma dom_get_upd i ds r0 d D' d' :
  (N.to_nat d < length ds)%nat ->
  dom_get (mkReg i (set_nth (N.to_nat d) D' ds) r0) d' = if d' =? d then Some D' else nth_error ds (N.to_nat d').
Proof.
  intros Hd. unfold dom_get. cbn [doms]. destruct (N.eqb_spec d' d) as [->|].
  - now apply nth_error_set_nth_eq.
  - apply nth_error_set_nth_neq. lia.
Qed.

Lemma put_ok n c r s k p : RI n c r s -> n + 1 < 2 ^ 32 - 1 -> c + 1 < 2 ^ 32 -> p <> 0 ->
  exists r' o s', reg_put r k p = Some (r', o) /\ o <> OFail /\ sp_reg s (Put k p) o s' /\
                  RI (n + 1) (c + 1) r' s'.
Proof.
  intros HR Hn Hc Hp. unfold reg_put.
  destruct (find_ptr p (rev r)) as [x|] eqn:Ef.
  { exists r, ORaise, s. split; [reflexivity|]. split; [discriminate|]. split.
    - apply sp_put_dup. apply (known_iff _ _ _ _ _ HR). exists x. now apply find_ptr_In.
    - eapply RI_mono; [| |eauto]; lia. }
  pose proof (find_ptr_None _ _ Ef) as Hnp.
  destruct (ensure_dom n c r s k HR Hc) as (ids' & doms' & d & Eq & Hk & HR').
  cbv zeta. rewrite Eq.
  destruct (dom_get_some _ _ _ _ _ _ HR' Hk) as [D HD]. pose proof HD as HD0.
  unfold dom_get in HD. cbn [doms] in HD.
  rewrite HD. cbn [bind].
  destruct (ri_dom HR' d D HD0) as [l HDI].
  destruct (alloc_ok n D l p HDI Hn Hp) as (i & fw & fs & -> & Hi & Hfree & Hlow & Hnth & l' & HDI').
  cbn [bind]. assert (Hdl : (N.to_nat d < length doms')%nat) by (apply nth_error_Some; congruence).
  unfold upd. rewrite (proj2 (Nat.ltb_lt _ _) Hdl). cbn [bind].
  set (D' := mkD (N.max (d_bound D) (u32 (i + 1))) fw fs) in *.
  rewrite (u32_small (i + 1)) by lia.
  exists (mkReg ids' (set_nth (N.to_nat d) D' doms') ((p, (d, i)) :: rev r)), (OId (i + 1)),
     (mkS ((p, (k, i + 1)) :: live s) (gone s)).
  split; [reflexivity|]. split; [discriminate|].
  pose proof (in_use_dom _ _ _ _ _ _ _ HR' ltac:(lia) Hk HD0) as Huse.
  assert (Hnk : ~ known s p).
  { rewrite (known_iff _ _ _ _ _ HR). intros [x Hx]. eapply Hnp; eauto. }
  assert (HiU : i <> UMAX) by (unfold UMAX; lia).
  split.
  - apply sp_put; [exact Hnk|]. split; [lia|]. split.
    + intros [q Hq]. apply Huse in Hq as [_ Hq]. replace (i + 1 - 1) with i in Hq by lia.
      eapply Hfree; eauto.
    + intros m Hm. destruct (Hlow (m - 1) ltac:(lia)) as [q Hq]. exists q. apply Huse. split; [lia|auto].
  - pose proof (dom_get_upd ids' doms' ((p, (d, i)) :: rev r) d D') as Hget.
    split; cbn [ids doms rev live gone].
    + apply (ri_ids HR').
    + apply (ri_inj HR').
    + intros k' d' H. rewrite set_nth_length. exact (ri_rng HR' _ _ H).
    + rewrite set_nth_length. apply (ri_cnt HR').
    + cbn [map fst]. constructor; [|apply (ri_rev HR)]. intros H. apply fst_in in H as [x Hx]. eapply Hnp; eauto.
    + intros q d' j [[= <- <- <-]|H] Hj; [eauto|]. exact (ri_own HR' _ _ _ H Hj).
    + intros d' E. rewrite Hget by auto. destruct (N.eqb_spec d' d) as [->|].
      * intros [= <-]. eauto.
      * intros H. destruct (ri_dom HR' d' E H) as [m Hm]. exists m. eapply DI_mono; [|eauto]; lia.
    + intros q d' j Hj. split.
      * intros [[= <- <- <-]|H].
        -- exists D'. rewrite Hget, N.eqb_refl by auto. split; [auto|]. cbn [D' d_fwd].
           now rewrite Hnth, N.eqb_refl.
        -- apply (ri_fwd HR') in H as (E & E1 & E2); [|auto]. cbn [rev] in *.
           destruct (N.eq_dec d' d) as [->|Hd'].
           ++ exists D'. rewrite Hget, N.eqb_refl by auto. split; [auto|]. cbn [D' d_fwd]. rewrite Hnth.
              rewrite HD0 in E1. injection E1 as <-.
              destruct (N.eqb_spec j i) as [->|]; [exfalso; eapply Hfree; eauto|auto].
           ++ exists E. rewrite Hget by auto. rewrite (proj2 (N.eqb_neq _ _) Hd'). auto.
      * intros (E & E1 & E2). rewrite Hget in E1 by auto. destruct (N.eqb_spec d' d) as [->|Hd'].
        -- injection E1 as <-. cbn [D' d_fwd] in E2. rewrite Hnth in E2.
           destruct (N.eqb_spec j i) as [->|Hji].
           ++ injection E2 as <-. now left.
           ++ right. apply (ri_fwd HR'); eauto.
        -- right. apply (ri_fwd HR'); eauto.
    + intros q k' m. split.
      * intros [[= <- <- <-]|H].
        -- exists d, i. split; [auto|]. split; [now left|auto].
        -- apply (ri_live HR') in H as (d' & j & H1 & H2 & H3). exists d', j. split; [auto|]. split; [now right|auto].
      * intros (d' & j & H1 & [[= <- <- <-]|H2] & H3 & ->).
        -- left. f_equal. f_equal. exact (key_of_dom _ _ _ _ _ _ _ HR' Hk H1).
        -- right. apply (ri_live HR'). exists d', j. auto.
    + cbn [map fst]. constructor; [|apply (ri_lnd HR)]. intros H. apply Hnk. now left.
    + intros q. rewrite (ri_gone HR). split.
      * intros [d' H]. exists d'. now right.
      * intros [d' [H|H]]; [congruence|eauto].
    + apply (ri_gnd HR).
Qed.

Lemma NoDup_mid {A} (l1 l2 : list A) x : NoDup (l1 ++ x :: l2) ->
  NoDup (l1 ++ l2) /\ forall y, In y (l1 ++ l2) <-> y <> x /\ In y (l1 ++ x :: l2).
Proof.
  intros H. split; [eapply NoDup_remove_1; eauto|].
  pose proof (NoDup_remove_2 _ _ _ H) as Hx. intros y. rewrite !in_app_iff in *. cbn [In]. split.
  - intros Hy. split; [|tauto]. intros ->. tauto.
  - intros [Hne [Hy|[Hy|Hy]]]; auto. congruence.
Qed.

Lemma fst_mid {A B} (l1 l2 : list (A * B)) p x q y :
  NoDup (map fst (l1 ++ (p, x) :: l2)) ->
  (In (q, y) (l1 ++ l2) <-> q <> p /\ In (q, y) (l1 ++ (p, x) :: l2)).
Proof.
  intros H. rewrite map_app in H. cbn [map fst] in H. pose proof (NoDup_remove_2 _ _ _ H) as Hx.
  rewrite <- map_app in Hx. split.
  - intros Hin. split.
    + intros ->. apply Hx. now apply in_fst in Hin.
    + rewrite in_app_iff in *. cbn. tauto.
  - intros [Hne Hin]. rewrite in_app_iff in *. cbn in Hin. destruct Hin as [?|[[= -> ->]|?]]; auto. congruence.
Qed.

Lemma remove_ok n c r s p : RI n c r s -> n < 2 ^ 32 - 1 ->
  exists r' o s', reg_remove r p = Some (r', o) /\ sp_reg s (Remove p) o s' /\
                  RI n c r' s'.
Proof.
  intros HR Hn. unfold reg_remove.
  destruct (find_ptr p (rev r)) as [[d i]|] eqn:Ef.
  2:{ exists r, OFail, s. split; [reflexivity|]. split; [|exact HR].
      apply sp_remove_unknown. rewrite (known_iff _ _ _ _ _ HR). intros [x Hx].
      eapply find_ptr_None; eauto. }
  apply find_ptr_In in Ef. pose proof (ri_rev HR) as Hrn.
  destruct (N.eqb_spec i UMAX) as [->|Hi].
  - assert (Hg : In p (gone s)) by (apply (ri_gone HR); eauto).
    apply in_split in Hg as (g1 & g2 & Hg).
    assert (Hnl : forall k m, ~ In (p, (k, m)) (live s)).
    { intros k m H. apply (ri_live HR) in H as (d' & j & _ & H2 & H3 & _).
      assert (E : (d', j) = (d, UMAX)) by (eapply NoDup_fst_inj; eauto). congruence. }
    pose proof (ri_gnd HR) as Hgn. rewrite Hg in Hgn. apply NoDup_mid in Hgn as [Hg1 Hg2].
    eexists _, _, _. split; [reflexivity|]. split.
    { eapply sp_remove_gone; eauto. intros H. apply fst_in in H as [[k m] H]. eapply Hnl; eauto. }
    split; cbn [ids doms rev live gone]; try apply HR.
    + now apply erase_ptr_nodup.
    + intros q d' j H Hj. apply erase_ptr_In in H as [_ H]; [|auto]. exact (ri_own HR _ _ _ H Hj).
    + intros q d' j Hj. rewrite erase_ptr_In by auto.
      change (dom_get {| ids := ids r; doms := doms r; rev := erase_ptr p (rev r) |}) with (dom_get r).
      rewrite <- (ri_fwd HR) by auto. split; [tauto|]. intros H. split; [|auto]. intros ->.
      assert (E : (d', j) = (d, UMAX)) by (eapply NoDup_fst_inj; eauto). congruence.
    + intros q k m. rewrite (ri_live HR). split; intros (d' & j & H1 & H2 & H3 & H4).
      * exists d', j. split; [auto|]. split; [|auto]. apply erase_ptr_In; [auto|]. split; [|auto].
        intros ->. assert (E : (d', j) = (d, UMAX)) by (eapply NoDup_fst_inj; eauto). congruence.
      * apply erase_ptr_In in H2 as [_ H2]; [|auto]. exists d', j. auto.
    + intros q. rewrite Hg2, <- Hg, (ri_gone HR). split.
      * intros [Hne [d' H]]. exists d'. apply erase_ptr_In; auto.
      * intros [d' H]. apply erase_ptr_In in H as [H1 H2]; [|auto]. eauto.
    + exact Hg1.
  - pose proof Ef as Ef0. apply (ri_fwd HR) in Ef as (D & HD & Hfw); [|auto].
    rewrite HD. cbn [bind]. destruct (ri_dom HR d D HD) as [l HDI].
    assert (Hp : p <> 0).
    { destruct (di_ent _ _ _ HDI _ _ Hfw) as [E|[E _]]; [congruence|exact E]. }
    destruct (dealloc_ok n D l i p HDI Hn Hp Hfw) as (fs & b & l' & -> & E2 & E3 & HDI' & Hnth).
    cbn [bind]. rewrite Hfw. cbn [bind fst]. rewrite N.eqb_refl. cbn [negb]. rewrite E2. cbn [bind].
    rewrite E3. cbn [bind].
    assert (Hdl : (N.to_nat d < length (doms r))%nat) by (unfold dom_get in HD; apply nth_error_Some; congruence).
    unfold upd. rewrite (proj2 (Nat.ltb_lt _ _) Hdl). cbn [bind].
    set (fw := set_nth (N.to_nat i) (0, false) (d_fwd D)) in *.
    set (D' := mkD b fw fs) in *.
    destruct (ri_own HR _ _ _ Ef0 Hi) as [k Hk].
    assert (Hl : In (p, (k, i + 1)) (live s)) by (apply (ri_live HR); exists d, i; auto).
    apply in_split in Hl as (l1 & l2 & Hl). pose proof (ri_lnd HR) as Hln. rewrite Hl in Hln.
    exists (mkReg (ids r) (set_nth (N.to_nat d) D' (doms r)) (erase_ptr p (rev r))), OUnit, (mkS (l1 ++ l2) (gone s)).
    split; [reflexivity|]. split; [eapply sp_remove; eauto|].
    pose proof (dom_get_upd (ids r) (doms r) (erase_ptr p (rev r)) d D') as Hget.
    split; cbn [ids doms rev live gone]; try apply HR.
    + intros k' d' H. rewrite set_nth_length. exact (ri_rng HR _ _ H).
    + rewrite set_nth_length. apply (ri_cnt HR).
    + now apply erase_ptr_nodup.
    + intros q d' j H Hj. apply erase_ptr_In in H as [_ H]; [|auto]. exact (ri_own HR _ _ _ H Hj).
    + intros d' E. rewrite Hget by auto. destruct (N.eqb_spec d' d) as [->|].
      * intros [= <-]. eauto.
      * intros H. exact (ri_dom HR d' E H).
    + intros q d' j Hj. rewrite erase_ptr_In by auto. split.
      * intros [Hq H]. apply (ri_fwd HR) in H as (E & F1 & F2); [|auto].
        destruct (N.eq_dec d' d) as [->|Hd'].
        -- exists D'. rewrite Hget, N.eqb_refl by auto. split; [auto|]. cbn [D' d_fwd]. rewrite Hnth.
           rewrite HD in F1. injection F1 as <-.
           destruct (N.eqb_spec j i) as [->|]; [congruence|auto].
        -- exists E. rewrite Hget by auto. rewrite (proj2 (N.eqb_neq _ _) Hd'). auto.
      * intros (E & F1 & F2). rewrite Hget in F1 by auto. destruct (N.eqb_spec d' d) as [->|Hd'].
        -- injection F1 as <-. cbn [D' d_fwd] in F2. rewrite Hnth in F2.
           destruct (N.eqb_spec j i) as [->|Hji]; [congruence|].
           assert (H : In (q, (d, j)) (rev r)) by (apply (ri_fwd HR); eauto).
           split; [|auto]. intros ->. assert (E : (d, j) = (d, i)) by (eapply NoDup_fst_inj; eauto). congruence.
        -- assert (H : In (q, (d', j)) (rev r)) by (apply (ri_fwd HR); eauto).
           split; [|auto]. intros ->. assert (X : (d', j) = (d, i)) by (eapply NoDup_fst_inj; eauto). congruence.
    + intros q k' m. rewrite (fst_mid l1 l2 p (k, i + 1)) by auto. rewrite <- Hl, (ri_live HR). split.
      * intros [Hq (d' & j & H1 & H2 & H3)]. exists d', j. split; [auto|]. split; [|auto]. apply erase_ptr_In; auto.
      * intros (d' & j & H1 & H2 & H3). apply erase_ptr_In in H2 as [H2 H4]; [|auto]. split; [auto|]. exists d', j. auto.
    + rewrite map_app in *. cbn [map fst] in Hln. eapply NoDup_remove_1; eauto.
    + intros q. rewrite (ri_gone HR). split.
      * intros [d' H]. exists d'. apply erase_ptr_In; [auto|]. split; [|auto]. intros ->.
        assert (X : (d', UMAX) = (d, i)) by (eapply NoDup_fst_inj; eauto). congruence.
      * intros [d' H]. apply erase_ptr_In in H as [_ H]; [|auto]. eauto.
Qed.

Lemma clear_ok n c r s : RI n c r s -> RI n c (reg_clear r) (mkS [] (map fst (live s) ++ gone s)).
Proof.
  intros HR. set (f := fun e : N * (N * N) => (fst e, (fst (snd e), UMAX))).
  assert (Hrev : forall p d i, In (p, (d, i)) (map f (rev r)) -> i = UMAX /\ exists j, In (p, (d, j)) (rev r)).
  { intros p d i H. apply in_map_iff in H as ([q [d' j]] & E & H). cbn in E. injection E as -> -> <-. eauto. }
  assert (Hdg : forall d D, dom_get (reg_clear r) d = Some D -> D = d_new).
  { intros d D H. unfold dom_get, reg_clear in H. cbn [doms] in H. rewrite nth_error_map in H.
    destruct (nth_error (doms r) (N.to_nat d)); [|discriminate]. cbn in H. congruence. }
  split; cbn [reg_clear ids doms rev live gone]; fold f; try apply HR.
  - rewrite map_length. apply (ri_rng HR).
  - rewrite map_length. apply (ri_cnt HR).
  - rewrite map_map. cbn [f fst]. apply (ri_rev HR).
  - intros p d i H Hi. apply Hrev in H as [-> _]. congruence.
  - intros d D H. apply Hdg in H. subst. exists []. apply DI_new.
  - intros p d i Hi. split.
    + intros H. apply Hrev in H as [-> _]. congruence.
    + intros (D & H1 & H2). apply Hdg in H1. subst D. cbn in H2. now destruct (N.to_nat i).
  - intros p k m. split; [intros []|]. intros (d & i & _ & H & Hi & _). apply Hrev in H as [-> _]. congruence.
  - constructor.
  - intros p. rewrite in_app_iff. fold (known s p). rewrite (known_iff _ _ _ _ _ HR). split.
    + intros [[d i] H]. exists d. apply in_map_iff. exists (p, (d, i)). auto.
    + intros [d H]. apply Hrev in H as [_ [j H]]. eauto.
  - assert (Hdis : forall p, In p (map fst (live s)) -> ~ In p (gone s)).
    { intros p H1 H2. apply fst_in in H1 as [[k m] H1]. apply (ri_live HR) in H1 as (d & i & _ & H1 & H3 & _).
      apply (ri_gone HR) in H2 as [d' H2].
      assert (E : (d, i) = (d', UMAX)) by (eapply NoDup_fst_inj; [apply (ri_rev HR)| |]; eauto). congruence. }
    pose proof (ri_lnd HR) as Hl. pose proof (ri_gnd HR) as Hg. clear -Hdis Hl Hg.
    induction (map fst (live s)) as [|x t IH]; cbn [app]; [auto|].
    inversion Hl; subst. constructor.
    + rewrite in_app_iff. intros [H|H]; [auto|]. eapply Hdis; [now left|eauto].
    + apply IH; auto. intros p Hp. apply Hdis. now right.
Qed.

Lemma writes_In fw i : forall j p, In (j, p) (writes i fw) <-> i <= j /\ nth_error fw (N.to_nat (j - i)) = Some (p, true).
Proof.
  revert i; induction fw as [|[q a] fw IH]; intros i j p; cbn [writes].
  - split; [intros []|]. intros [_ H]. now destruct (N.to_nat (j - i)).
  - assert (Hs : i + 1 <= j -> N.to_nat (j - i) = S (N.to_nat (j - (i + 1)))) by lia.
    destruct a.
    + cbn [In]. rewrite IH. split.
      * intros [[= <- <-]|[H1 H2]].
        -- split; [lia|]. now rewrite N.sub_diag.
        -- split; [lia|]. rewrite Hs by auto. exact H2.
      * intros [H1 H2]. destruct (N.eq_dec i j) as [->|].
        -- rewrite N.sub_diag in H2. left. change (Some (q, true) = Some (p, true)) in H2. congruence.
        -- right. split; [lia|]. rewrite Hs in H2 by lia. exact H2.
    + rewrite IH. split.
      * intros [H1 H2]. split; [lia|]. rewrite Hs by auto. exact H2.
      * intros [H1 H2]. destruct (N.eq_dec i j) as [->|].
        -- rewrite N.sub_diag in H2. change (Some (q, false) = Some (p, true)) in H2. congruence.
        -- split; [lia|]. rewrite Hs in H2 by lia. exact H2.
Qed.

Lemma writes_nodup fw i : NoDup (map fst (writes i fw)).
Proof.
  revert i; induction fw as [|[q a] fw IH]; intros i; cbn [writes]; [constructor|].
  destruct a; [|apply IH]. cbn [map fst]. constructor; [|apply IH].
  intros H. apply fst_in in H as [p H]. apply writes_In in H as [H _]. lia.
Qed.

Definition op_ok (o : rop) : bool :=
  match o with Put _ p => negb (p =? 0) | Shutdown => false | _ => true end.

Lemma reg_step_ok n c r s o : RI n c r s -> n + 1 < 2 ^ 32 - 1 -> c + 1 < 2 ^ 32 -> op_ok o = true ->
  exists r' x s', reg_step r o = Some (r', x) /\ sp_reg s o x s' /\ RI (n + 1) (c + 1) r' s'.
Proof.
  intros HR Hn Hc Hok.
  assert (HR1 : RI (n + 1) (c + 1) r s) by (eapply RI_mono; [| |eauto]; lia).
  destruct o as [k p|p|p|k|k|k id|k| |]; cbn [reg_step op_ok] in *.
  - destruct (N.eqb_spec p 0); [discriminate|].
    destruct (put_ok n c r s k p HR Hn Hc n0) as (r' & x & s' & A & _ & B & C). eauto 8.
  - destruct (remove_ok n c r s p HR ltac:(lia)) as (r' & x & s' & A & B & C).
    exists r', x, s'. split; [auto|]. split; [auto|]. eapply RI_mono; [| |eauto]; lia.
  - eexists _, _, s. split; [reflexivity|]. split; [|exact HR1]. unfold reg_id.
    destruct (N.eqb_spec p 0) as [->|Hp]; [constructor|].
    destruct (find_ptr p (rev r)) as [[d i]|] eqn:E.
    + apply find_ptr_In in E. destruct (N.eqb_spec i UMAX) as [->|Hi].
      * apply sp_id_gone; auto; [apply (ri_gone HR); eauto|].
        intros H. apply fst_in in H as [[k m] H]. apply (ri_live HR) in H as (d' & j & _ & H2 & H3 & _).
        assert (X : (d', j) = (d, UMAX)) by (eapply NoDup_fst_inj; [apply (ri_rev HR)| |]; eauto). congruence.
      * destruct (ri_own HR _ _ _ E Hi) as [k Hk].
        pose proof E as E0. apply (ri_fwd HR) in E0 as (D & HD & Hfw); [|auto].
        destruct (ri_dom HR d D HD) as [l HDI]. apply nth_lt in Hfw. pose proof (di_len _ _ _ HDI).
        rewrite (u32_small (i + 1)) by lia. apply (sp_id _ _ k); [|auto].
        apply (ri_live HR). exists d, i. auto.
    + apply sp_id_unknown; auto. rewrite (known_iff _ _ _ _ _ HR). intros [x Hx]. eapply find_ptr_None; eauto.
  - unfold reg_bound. destruct (find_key k (ids r)) as [d|] eqn:E.
    + apply find_key_In in E. destruct (dom_get_some _ _ _ _ _ _ HR E) as [D HD]. rewrite HD. cbn [bind].
      eexists _, _, s. split; [reflexivity|]. split; [|exact HR1]. constructor.
      pose proof (in_use_dom _ _ _ _ _ _ _ HR ltac:(lia) E HD) as Hu.
      destruct (ri_dom HR d D HD) as [l HDI]. split.
      * intros m [p Hp]. apply Hu in Hp as [Hm Hp]. apply (di_act _ _ _ HDI) in Hp. lia.
      * destruct (di_top _ _ _ HDI) as [Z|[p Hp]]; [now left|].
        destruct (N.eq_dec (d_bound D) 0); [now left|]. right. exists p. apply Hu. split; [lia|auto].
    + cbn [bind]. eexists _, _, s. split; [reflexivity|]. split; [|exact HR1]. constructor. split; [|now left].
      intros m Hm. exfalso. eapply in_use_nokey; eauto.
  - unfold reg_all. destruct (find_key k (ids r)) as [d|] eqn:E.
    + apply find_key_In in E. destruct (dom_get_some _ _ _ _ _ _ HR E) as [D HD]. rewrite HD. cbn [bind].
      eexists _, _, s. split; [reflexivity|]. split; [|exact HR1]. constructor.
      * intros i p. rewrite writes_In. rewrite (in_use_dom _ _ _ _ _ _ _ HR ltac:(lia) E HD).
        replace (i + 1 - 1) with i by lia. replace (i - 0) with i by lia. split; intros [_ H]; (split; [lia|auto]).
      * apply writes_nodup.
    + cbn [bind]. eexists _, _, s. split; [reflexivity|]. split; [|exact HR1]. constructor; [|constructor].
      intros i p. split; [intros []|]. intros H. eapply in_use_nokey; eauto. exists p. eauto.
  - unfold reg_ptr. assert (H0 : ~ in_use s k 0).
    { intros [p Hp]. apply (ri_live HR) in Hp as (d & i & _ & _ & _ & H). lia. }
    destruct (N.eqb_spec id 0) as [->|Hid].
    { cbn [bind]. eexists _, _, s. split; [reflexivity|]. split; [|exact HR1]. apply sp_ptr_none; auto. }
    destruct (find_key k (ids r)) as [d|] eqn:E.
    + apply find_key_In in E. destruct (dom_get_some _ _ _ _ _ _ HR E) as [D HD]. rewrite HD. cbn [bind].
      pose proof (in_use_dom _ _ _ _ _ _ _ HR ltac:(lia) E HD id) as Hu.
      destruct (ri_dom HR d D HD) as [l HDI].
      destruct (N.leb_spec (N.of_nat (length (d_fwd D))) (id - 1)) as [Hl|Hl].
      * cbn [bind]. eexists _, _, s. split; [reflexivity|]. split; [|exact HR1]. apply sp_ptr_none; [|auto].
        intros [p Hp]. apply Hu in Hp as [_ Hp]. apply nth_lt in Hp. lia.
      * destruct (nth_error (d_fwd D) (N.to_nat (id - 1))) as [[p a]|] eqn:En.
        2:{ apply nth_error_None in En. lia. }
        cbn [bind fst snd]. eexists _, _, s. split; [reflexivity|]. split; [|exact HR1].
        destruct a.
        -- apply sp_ptr. apply Hu. split; [lia|auto].
        -- apply sp_ptr_none; [|auto]. intros [q Hq]. apply Hu in Hq as [_ Hq]. congruence.
    + cbn [bind]. eexists _, _, s. split; [reflexivity|]. split; [|exact HR1]. apply sp_ptr_none; auto.
      eapply in_use_nokey; eauto.
  - unfold reg_peek. destruct (find_key k (ids r)) as [d|] eqn:E.
    + apply find_key_In in E. destruct (dom_get_some _ _ _ _ _ _ HR E) as [D HD]. rewrite HD. cbn [bind].
      pose proof (in_use_dom _ _ _ _ _ _ _ HR ltac:(lia) E HD) as Hu.
      destruct (ri_dom HR d D HD) as [l HDI].
      destruct (N.ltb_spec 0 (d_bound D)) as [Hb|Hb].
      * destruct (di_top _ _ _ HDI) as [Z|[p Hp]]; [lia|]. rewrite Hp. cbn [bind fst].
        eexists _, _, s. split; [reflexivity|]. split; [|exact HR1].
        assert (Hin : In (p, (k, d_bound D)) (live s)) by (apply Hu; auto).
        apply (sp_peek _ _ (d_bound D)); [|auto]. split; [|right; exists p; auto].
        intros m [q Hq]. apply Hu in Hq as [Hm Hq]. apply (di_act _ _ _ HDI) in Hq. lia.
      * cbn [bind]. eexists _, _, s. split; [reflexivity|]. split; [|exact HR1]. apply sp_peek_none.
        intros m [q Hq]. apply Hu in Hq as [Hm Hq]. apply (di_act _ _ _ HDI) in Hq. lia.
    + cbn [bind]. eexists _, _, s. split; [reflexivity|]. split; [|exact HR1]. apply sp_peek_none.
      eapply in_use_nokey; eauto.
  - eexists _, _, _. split; [reflexivity|]. split; [constructor|].
    eapply RI_mono; [| |apply clear_ok; eauto]; lia.
  - discriminate.
Qed.

Lemma reg_run_ok os : forall n c r s, RI n c r s ->
  n + N.of_nat (length os) < 2 ^ 32 - 1 -> c + N.of_nat (length os) < 2 ^ 32 ->
  forallb op_ok os = true -> exists xs, reg_run r os = Some xs /\ sp_hist s os xs.
Proof.
  induction os as [|o t IH]; intros n c r s HR Hn Hc Hok; cbn [reg_run].
  - exists []. split; [auto|constructor].
  - cbn [forallb length] in *. apply andb_true_iff in Hok as [H1 H2].
    destruct (reg_step_ok n c r s o HR ltac:(lia) ltac:(lia) H1) as (r' & x & s' & E & Hs & HR').
    rewrite E. cbn [bind fst snd].
    assert (Hd : x = OFail \/ x <> OFail) by (destruct x; auto; right; discriminate).
    destruct Hd as [->|Hx]; [exists [OFail]; split; [auto|econstructor; eauto]|].
    destruct (IH (n + 1) (c + 1) r' s' HR' ltac:(lia) ltac:(lia) H2) as (xs & E2 & Hh).
    exists (x :: xs). split; [|econstructor; eauto]. rewrite E2. cbn [bind].
    destruct x; congruence.
Qed.

(** Consequences of the specification used for the uniqueness theorem. *)
Lemma live_unique n c r s k m p q : RI n c r s -> In (p, (k, m)) (live s) -> In (q, (k, m)) (live s) -> p = q.
Proof.
  intros HR H1 H2. apply (ri_live HR) in H1 as (d & i & A1 & A2 & A3 & A4).
  apply (ri_live HR) in H2 as (d' & i' & B1 & B2 & B3 & B4).
  assert (d = d') by (eapply NoDup_fst_inj; [apply (ri_ids HR)| |]; eauto). subst d'.
  assert (i = i') by lia. subst i'.
  apply (ri_fwd HR) in A2 as (D & E1 & E2); [|auto]. apply (ri_fwd HR) in B2 as (D' & E3 & E4); [|auto].
  congruence.
Qed.
