From Verif Require Import Base Sched_Model Sched_Spec.
Local Open Scope N_scope.

Lemma match_b_key b x : match_b b x = true <-> b_key b = sv_key x.
Proof.
  unfold match_b, b_key, sv_key. rewrite andb_true_iff, !N.eqb_eq. split; [intros (-> & ->); auto|now injection 1].
Qed.

(** ** find *)
Lemma scan_ok bs x : forall i, match scan bs x i with
  | (Some j, j') => j = j' /\ (i <= j)%nat /\ exists b, nth_error bs (j - i) = Some b /\ match_b b x = true
  | (None, _) => forall b, In b bs -> match_b b x = false
  end.
Proof.
  induction bs as [|b r IH]; intros i; cbn [scan]; [intros b []|].
  destruct (match_b b x) eqn:E.
  - split; [auto|]. split; [lia|]. exists b. rewrite Nat.sub_diag. auto.
  - specialize (IH (S i)). destruct (scan r x (S i)) as ([j|], j').
    + destruct IH as (-> & H & b' & N & M). split; [auto|]. split; [lia|]. exists b'.
      replace (j' - i)%nat with (S (j' - S i)) by lia. auto.
    + intros b' [<-|H]; auto.
Qed.
Lemma find_ok bs hint x : match find bs hint x with
  | (Some j, _) => exists b, nth_error bs j = Some b /\ match_b b x = true
  | (None, _) => forall b, In b bs -> match_b b x = false
  end.
Proof.
  unfold find. assert (S := scan_ok bs x 0). destruct (nth_error bs hint) as [b|] eqn:E.
  - destruct (match_b b x) eqn:M; [eauto|]. destruct (scan bs x 0) as ([j|], j'); auto.
    destruct S as (_ & _ & S). now rewrite Nat.sub_0_r in S.
  - destruct (scan bs x 0) as ([j|], j'); auto. destruct S as (_ & _ & S). now rewrite Nat.sub_0_r in S.
Qed.

Lemma upd_lt {A} n (x : A) l : (n < length l)%nat -> upd n x l = Some (set_nth n x l).
Proof. unfold upd. intros H. apply Nat.ltb_lt in H. now rewrite H. Qed.

Lemma NoDup_app_snoc {A} (l : list A) x : NoDup l -> ~ In x l -> NoDup (l ++ [x]).
Proof.
  intros N H. apply (Permutation_NoDup (l := x :: l)); [apply Permutation_cons_append|now constructor].
Qed.
Lemma filter_nil_iff {A} (f : A -> bool) l : filter f l = [] <-> forall x, In x l -> f x = false.
Proof.
  induction l as [|a l IH]; cbn; [tauto|]. destruct (f a) eqn:E.
  - split; [discriminate|]. intros H. specialize (H a (or_introl eq_refl)). congruence.
  - rewrite IH. split; [intros H x [<-|]; auto|auto].
Qed.

(** ** Pass 1 *)
Definition cntl (b : bucket) (l : list sv) : nat := length (filter (match_b b) l).
Record tinv (bs : list bucket) (l : list sv) : Prop := {
  t_nd : NoDup (map b_key bs);
  t_cov : forall x, In x l -> exists b, In b bs /\ match_b b x = true;
  t_cnt : forall b, In b bs -> b_count b = N.of_nat (cntl b l) }.

Lemma set_nth_map_key bs i b b' : nth_error bs i = Some b -> b_key b' = b_key b ->
  map b_key (set_nth i b' bs) = map b_key bs.
Proof.
  revert i. induction bs as [|a r IH]; intros [|i] E K; cbn in *; try discriminate; auto.
  - injection E as ->. now rewrite K.
  - now rewrite (IH i).
Qed.
Lemma in_set_nth bs i (b b' c : bucket) : NoDup (map b_key bs) -> nth_error bs i = Some b -> b_key b' = b_key b ->
  In c (set_nth i b' bs) <-> c = b' \/ (In c bs /\ b_key c <> b_key b).
Proof.
  revert i. induction bs as [|a r IH]; intros [|i] ND E K; cbn in *; try discriminate.
  - injection E as ->. inversion ND as [|? ? Hn Hr]; subst. split.
    + intros [<-|H]; [auto|]. right. split; [auto|]. intros Q. apply Hn. rewrite <- Q. now apply in_map.
    + intros [->|([<-|H] & Q)]; auto. congruence.
  - inversion ND as [|? ? Hn Hr]; subst. rewrite (IH i Hr E K). split.
    + intros [<-|[->|(H & Q)]]; auto. right. split; [auto|]. intros Q. apply Hn. rewrite Q. apply in_map.
      eapply nth_error_In; eauto.
    + intros [->|([<-|H] & Q)]; auto.
Qed.

Lemma filter_snoc {A} (f : A -> bool) l x : filter f (l ++ [x]) = filter f l ++ if f x then [x] else [].
Proof. rewrite filter_app. cbn. now destruct (f x). Qed.
Lemma cntl_snoc b l x : cntl b (l ++ [x]) = (cntl b l + if match_b b x then 1 else 0)%nat.
Proof. unfold cntl. rewrite filter_snoc, app_length. now destruct (match_b b x). Qed.
Lemma cntl_le b l : (cntl b l <= length l)%nat.
Proof. unfold cntl. induction l; cbn; [lia|]. destruct (match_b b a); cbn; lia. Qed.
Lemma match_b_ext b b' x : b_key b = b_key b' -> match_b b x = match_b b' x.
Proof. unfold b_key, match_b. now injection 1 as -> ->. Qed.
Lemma cntl_ext b b' l : b_key b = b_key b' -> cntl b l = cntl b' l.
Proof. intros H. unfold cntl. f_equal. apply filter_ext. intros x. now apply match_b_ext. Qed.
Lemma nomatch b c x : match_b b x = true -> b_key c <> b_key b -> match_b c x = false.
Proof.
  intros M H. destruct (match_b c x) eqn:E; auto. apply match_b_key in M, E. congruence.
Qed.

Lemma tally_ok l : forall bs done hint, tinv bs done -> N.of_nat (length done + length l) < 2 ^ 32 ->
  exists r, tally l bs hint = Some r /\ forall bs', r = Some bs' -> tinv bs' (done ++ l).
Proof.
  induction l as [|x l IH]; intros bs done hint T Hn; cbn [tally].
  - eexists. split; [reflexivity|]. intros bs' [= <-]. now rewrite app_nil_r.
  - assert (F := find_ok bs hint x). destruct (find bs hint x) as ([i|], h).
    + destruct F as (b & E & M). rewrite E. cbn [bind].
      assert (Hi : (i < length bs)%nat) by (apply nth_error_Some; congruence).
      rewrite upd_lt by exact Hi. cbn [bind].
      assert (Hb : In b bs) by (eapply nth_error_In; eauto).
      destruct T as [ND CV CT].
      replace (done ++ x :: l) with ((done ++ [x]) ++ l) by (now rewrite <- app_assoc).
      apply IH; [|rewrite app_length in *; cbn [length] in *; lia].
      constructor.
      * now rewrite (set_nth_map_key _ _ b).
      * intros y Hy. apply in_app_or in Hy as [Hy|[<-|[]]].
        -- destruct (CV y Hy) as (c & Hc & Mc). destruct (match_b b y) eqn:My.
           ++ exists (set_count b (u32 (b_count b + 1))). split; [|exact My].
              apply (in_set_nth bs i b); auto.
           ++ exists c. split; [|exact Mc]. apply (in_set_nth bs i b); auto. right. split; [auto|].
              intros Q. rewrite (match_b_ext _ _ _ Q) in Mc. congruence.
        -- exists (set_count b (u32 (b_count b + 1))). split; [|exact M]. apply (in_set_nth bs i b); auto.
      * intros c Hc. apply (in_set_nth bs i b) in Hc as [->|(Hc & Q)]; auto.
        -- cbn [set_count b_count]. rewrite (cntl_ext _ b) by reflexivity. rewrite cntl_snoc, M, (CT b Hb).
           pose proof (cntl_le b done). rewrite u32_small by (cbn [length] in Hn; lia). lia.
        -- rewrite cntl_snoc, (nomatch b c x M Q), (CT c Hc). lia.
    + destruct (Nat.ltb_spec (length bs) MAX_BUCKETS); [|eexists; split; [reflexivity|discriminate]].
      destruct T as [ND CV CT].
      replace (done ++ x :: l) with ((done ++ [x]) ++ l) by (now rewrite <- app_assoc).
      set (nb := mkBk (sv_size x) (sv_scope x) 1 0).
      assert (Mn : match_b nb x = true) by (apply match_b_key; reflexivity).
      assert (Fr : ~ In (b_key nb) (map b_key bs)).
      { intros Hin. apply in_map_iff in Hin as (c & Ec & Hc). specialize (F c Hc).
        rewrite (match_b_ext _ _ _ Ec) in F. congruence. }
      apply IH; [|rewrite app_length in *; cbn [length] in *; lia].
      constructor.
      * rewrite map_app. cbn [map]. apply NoDup_app_snoc; auto.
      * intros y Hy. apply in_app_or in Hy as [Hy|[<-|[]]].
        -- destruct (CV y Hy) as (c & Hc & Mc). exists c. split; [apply in_or_app; auto|auto].
        -- exists nb. split; [apply in_or_app; right; now left|auto].
      * intros c Hc. apply in_app_or in Hc as [Hc|[<-|[]]].
        -- rewrite cntl_snoc, (F c Hc), (CT c Hc). lia.
        -- rewrite cntl_snoc, Mn. cbn [nb b_count].
           assert (Z : cntl nb done = 0%nat); [|rewrite Z; reflexivity].
           unfold cntl. apply length_zero_iff_nil. apply filter_nil_iff. intros y Hy.
           destruct (CV y Hy) as (c & Hc & Mc). destruct (match_b nb y) eqn:E; auto.
           exfalso. apply Fr. apply match_b_key in Mc, E. rewrite E, <- Mc. now apply in_map.
Qed.

(** ** Pass 2 *)
Fixpoint lay (o : N) (bs : list bucket) (done scratch : list sv) : Prop :=
  match bs with
  | [] => scratch = []
  | b :: r => exists junk rest,
      scratch = filter (match_b b) done ++ junk ++ rest /\
      N.of_nat (cntl b done + length junk) = b_count b /\
      b_offset b = o + N.of_nat (cntl b done) /\ lay (o + b_count b) r done rest
  end.

Lemma set_nth_app2 {A} (a : list A) n x b : set_nth (length a + n) x (a ++ b) = a ++ set_nth n x b.
Proof. induction a; cbn; [reflexivity|]. now rewrite IHa. Qed.

Lemma lay_len o bs done scratch : lay o bs done scratch ->
  N.of_nat (length scratch) = fold_right (fun b a => b_count b + a) 0 bs.
Proof.
  revert o scratch. induction bs as [|b r IH]; intros o scratch L; cbn in *; [now subst|].
  destruct L as (junk & rest & -> & E & _ & L). rewrite !app_length. specialize (IH _ _ L). fold (cntl b done). lia.
Qed.

Lemma lay_skip o bs done scratch x : lay o bs done scratch -> (forall b, In b bs -> match_b b x = false) ->
  lay o bs (done ++ [x]) scratch.
Proof.
  revert o scratch. induction bs as [|b r IH]; intros o scratch L H; cbn in *; auto.
  destruct L as (junk & rest & E & C & O & L). exists junk, rest.
  rewrite cntl_snoc, filter_snoc, (H b (or_introl eq_refl)), app_nil_r, Nat.add_0_r. repeat split; auto.
Qed.

Lemma lay_step bs : forall o done scratch x i b, lay o bs done scratch -> NoDup (map b_key bs) ->
  nth_error bs i = Some b -> match_b b x = true -> N.of_nat (cntl b done) < b_count b ->
  o + fold_right (fun b a => b_count b + a) 0 bs < 2 ^ 32 ->
  o <= b_offset b /\
  exists scratch', upd (N.to_nat (b_offset b - o)) x scratch = Some scratch' /\
    lay o (set_nth i (set_offset b (u32 (b_offset b + 1))) bs) (done ++ [x]) scratch'.
Proof.
  induction bs as [|a r IH]; intros o done scratch x i b L ND E M C S; [destruct i; discriminate|].
  cbn [map] in ND. inversion ND as [|? ? Hn Hr]; subst. cbn [lay] in L.
  destruct L as (junk & rest & -> & EC & EO & L). pose proof (lay_len _ _ _ _ L) as LL.
  cbn [fold_right] in S. destruct i as [|i]; cbn [nth_error] in E.
  - injection E as ->. destruct junk as [|j junk]; [cbn in EC; lia|].
    split; [lia|]. rewrite EO. replace (o + N.of_nat (cntl b done) - o) with (N.of_nat (cntl b done)) by lia.
    rewrite Nat2N.id. eexists. split.
    + apply upd_lt. rewrite app_length. fold (cntl b done). cbn. lia.
    + cbn [set_nth lay]. exists junk, rest. split.
      * unfold cntl. rewrite <- (Nat.add_0_r (length _)), set_nth_app2. cbn [app set_nth].
        rewrite filter_snoc. change (match_b (set_offset b _) x) with (match_b b x). rewrite M, <- app_assoc. reflexivity.
      * change (b_count (set_offset b _)) with (b_count b). change (b_offset (set_offset b ?q)) with q.
        rewrite (cntl_ext _ b) by reflexivity. rewrite cntl_snoc, M. cbn [length] in EC.
        split; [lia|]. split; [rewrite u32_small by lia; lia|].
        apply lay_skip; auto. intros c Hc. apply (nomatch b); auto. intros Q. apply Hn. rewrite <- Q. now apply in_map.
  - destruct (IH (o + b_count a) done rest x i b L Hr E M C ltac:(lia)) as (Ho & sc' & U & L').
    split; [lia|]. unfold upd in U. destruct (Nat.ltb_spec (N.to_nat (b_offset b - (o + b_count a))) (length rest)); [|discriminate].
    injection U as <-. eexists. split.
    + apply upd_lt. rewrite !app_length. fold (cntl a done). lia.
    + cbn [set_nth lay]. exists junk. eexists.
      assert (Ma : match_b a x = false).
      { apply (nomatch b); auto. intros Q. apply Hn. rewrite Q. apply in_map. eapply nth_error_In; eauto. }
      split; [|split; [|split; [|exact L']]].
      * rewrite filter_snoc, Ma, app_nil_r.
        replace (N.to_nat (b_offset b - o)) with (length (filter (match_b a) done) + (length junk + N.to_nat (b_offset b - (o + b_count a))))%nat
          by (fold (cntl a done); lia).
        now rewrite !set_nth_app2.
      * rewrite cntl_snoc, Ma. lia.
      * rewrite cntl_snoc, Ma. lia.
Qed.

Lemma lay_final bs : forall o l scratch, lay o bs l scratch -> (forall b, In b bs -> b_count b = N.of_nat (cntl b l)) ->
  scratch = flat_map (fun b => filter (match_b b) l) bs.
Proof.
  induction bs as [|b r IH]; intros o l scratch L H; cbn in *; auto.
  destruct L as (junk & rest & -> & E & _ & L). rewrite (H b) in E by auto.
  destruct junk; [|cbn in E; lia]. cbn. f_equal. eapply IH; eauto.
Qed.

Lemma cntl_app b l l' : cntl b (l ++ l') = (cntl b l + cntl b l')%nat.
Proof. unfold cntl. now rewrite filter_app, app_length. Qed.

Lemma nth_set_key bs i b o c : NoDup (map b_key bs) -> nth_error bs i = Some b ->
  In c (set_nth i (set_offset b o) bs) -> exists c', In c' bs /\ b_key c = b_key c' /\ b_count c = b_count c'.
Proof. intros ND E H. apply (in_set_nth bs i b) in H as [->|(H & _)]; auto; eauto. exists b. split; [eapply nth_error_In; eauto|auto]. Qed.

Lemma fold_count_set bs i b o : nth_error bs i = Some b ->
  fold_right (fun b a => b_count b + a) 0 (set_nth i (set_offset b o) bs) = fold_right (fun b a => b_count b + a) 0 bs.
Proof. revert i. induction bs as [|a r IH]; intros [|i] E; cbn in *; try discriminate; [now injection E as ->|now rewrite IH]. Qed.

Lemma map_offset bs o i b : nth_error bs i = Some b -> forall f : bucket -> list sv,
  (forall b o, f (set_offset b o) = f b) -> flat_map f (set_nth i (set_offset b o) bs) = flat_map f bs.
Proof.
  intros E f H. revert i E. induction bs as [|a r IH]; intros [|i] E; cbn in *; try discriminate.
  - injection E as ->. now rewrite H.
  - now rewrite (IH i).
Qed.

Lemma scatter_ok l : forall bs done hint scratch all, all = done ++ l -> lay 0 bs done scratch ->
  NoDup (map b_key bs) -> (forall x, In x all -> exists b, In b bs /\ match_b b x = true) ->
  (forall b, In b bs -> b_count b = N.of_nat (cntl b all)) ->
  fold_right (fun b a => b_count b + a) 0 bs < 2 ^ 32 ->
  scatter l bs hint scratch = Some (flat_map (fun b => filter (match_b b) all) bs).
Proof.
  induction l as [|x l IH]; intros bs done hint scratch all -> L ND CV CT S; cbn [scatter].
  - rewrite app_nil_r in *. f_equal. eapply lay_final; eauto.
  - assert (F := find_ok bs hint x). destruct (find bs hint x) as ([i|], h).
    + destruct F as (b & E & M). cbn [bind]. rewrite E. cbn [bind].
      assert (Hb : In b bs) by (eapply nth_error_In; eauto).
      assert (C : N.of_nat (cntl b done) < b_count b).
      { rewrite (CT b Hb), cntl_app. unfold cntl at 3. cbn [filter]. rewrite M. cbn [length]. lia. }
      rewrite upd_lt by (apply nth_error_Some; congruence). cbn [bind].
      destruct (lay_step bs 0 done scratch x i b L ND E M C ltac:(lia)) as (_ & sc' & U & L').
      rewrite N.sub_0_r in U. rewrite U. cbn [bind].
      rewrite (IH _ (done ++ [x]) h sc' (done ++ x :: l)); auto.
      * f_equal. apply map_offset; auto.
      * now rewrite <- app_assoc.
      * now rewrite (set_nth_map_key _ _ b).
      * intros y Hy. destruct (CV y Hy) as (c & Hc & Mc). destruct (match_b b y) eqn:My.
        -- exists (set_offset b (u32 (b_offset b + 1))). split; [apply (in_set_nth bs i b); auto|exact My].
        -- exists c. split; [|exact Mc]. apply (in_set_nth bs i b); auto. right. split; [auto|].
           intros Q. rewrite (match_b_ext _ _ _ Q) in Mc. congruence.
      * intros c Hc. destruct (nth_set_key bs i b _ c ND E Hc) as (c' & Hc' & Ek & Ec).
        rewrite Ec, (CT c' Hc'). f_equal. now apply cntl_ext.
      * now rewrite fold_count_set.
    + exfalso. destruct (CV x) as (b & Hb & M); [apply in_or_app; right; now left|]. rewrite (F b Hb) in M. discriminate.
Qed.

(** ** The result *)
Lemma offsets_key bs : forall o, map b_key (offsets bs o) = map b_key bs.
Proof. induction bs as [|b r IH]; intros o; cbn; [reflexivity|]. now rewrite IH. Qed.
Lemma offsets_in bs : forall o b, In b (offsets bs o) -> exists b', In b' bs /\ b_key b = b_key b' /\ b_count b = b_count b'.
Proof.
  induction bs as [|a r IH]; intros o b; cbn; [tauto|]. intros [<-|H]; [eauto 6|].
  destruct (IH _ _ H) as (b' & ? & ?). eauto.
Qed.
Lemma offsets_in2 bs : forall o b, In b bs -> exists b', In b' (offsets bs o) /\ b_key b' = b_key b.
Proof.
  induction bs as [|a r IH]; intros o b; cbn; [tauto|]. intros [<-|H]; [eauto|].
  destruct (IH (u32 (o + b_count a)) _ H) as (b' & ? & ?). eauto.
Qed.
Lemma offsets_fold bs : forall o, fold_right (fun b a => b_count b + a) 0 (offsets bs o) = fold_right (fun b a => b_count b + a) 0 bs.
Proof. induction bs as [|a r IH]; intros o; cbn; [reflexivity|]. now rewrite IH. Qed.
Lemma offsets_flat (l : list sv) bs : forall o, flat_map (fun b => filter (match_b b) l) (offsets bs o) = flat_map (fun b => filter (match_b b) l) bs.
Proof. induction bs as [|a r IH]; intros o; cbn; [reflexivity|]. rewrite IH. reflexivity. Qed.

Lemma offsets_lay bs : forall o scratch, o + fold_right (fun b a => b_count b + a) 0 bs < 2 ^ 32 ->
  N.of_nat (length scratch) = fold_right (fun b a => b_count b + a) 0 bs -> lay o (offsets bs o) [] scratch.
Proof.
  induction bs as [|b r IH]; intros o scratch S E; cbn in *; [destruct scratch; [auto|cbn in E; lia]|].
  exists (firstn (N.to_nat (b_count b)) scratch), (skipn (N.to_nat (b_count b)) scratch).
  rewrite firstn_skipn, firstn_length. split; [auto|]. split; [lia|]. split; [lia|].
  rewrite u32_small by lia. apply IH; [lia|]. rewrite skipn_length. lia.
Qed.

Definition groups (bs : list bucket) (l : list sv) := flat_map (fun b => filter (match_b b) l) bs.

Lemma groups_cons_none bs x l : (forall b, In b bs -> match_b b x = false) -> groups bs (x :: l) = groups bs l.
Proof.
  unfold groups. induction bs as [|b r IH]; intros H; cbn [flat_map]; [reflexivity|].
  rewrite IH by (intros; apply H; now right). f_equal. cbn [filter]. now rewrite (H b) by (now left).
Qed.
Lemma groups_cons bs x l : NoDup (map b_key bs) -> (exists b, In b bs /\ match_b b x = true) ->
  Permutation (groups bs (x :: l)) (x :: groups bs l).
Proof.
  intros ND (b & Hb & M). induction bs as [|a r IH]; [destruct Hb|].
  cbn [map] in ND. inversion ND as [|? ? Hn Hr]; subst. unfold groups in *. cbn [flat_map].
  destruct Hb as [<-|Hb].
  - fold (groups r (x :: l)). rewrite groups_cons_none.
    + cbn [filter]. rewrite M. reflexivity.
    + intros c Hc. apply (nomatch a); auto. intros Q. apply Hn. rewrite <- Q. now apply in_map.
  - assert (E : filter (match_b a) (x :: l) = filter (match_b a) l).
    { cbn [filter]. rewrite (nomatch b a x M); auto. intros Q. apply Hn. rewrite Q. now apply in_map. }
    rewrite E, (IH Hr Hb). symmetry. apply Permutation_middle.
Qed.
Lemma groups_perm bs l : NoDup (map b_key bs) -> (forall x, In x l -> exists b, In b bs /\ match_b b x = true) ->
  Permutation l (groups bs l).
Proof.
  intros ND. induction l as [|x l IH]; intros H.
  - unfold groups. induction bs; cbn; auto. apply IHbs. now inversion ND. intros x [].
  - rewrite groups_cons; [|exact ND|apply H; now left]. constructor. apply IH. intros; apply H; now right.
Qed.
Lemma groups_len bs l : (forall b, In b bs -> b_count b = N.of_nat (cntl b l)) ->
  fold_right (fun b a => b_count b + a) 0 bs = N.of_nat (length (groups bs l)).
Proof.
  unfold groups. induction bs as [|b r IH]; intros H; cbn [fold_right flat_map]; [reflexivity|].
  rewrite app_length, (H b), IH by (auto using in_eq, in_cons). fold (cntl b l). lia.
Qed.

Definition pre (a b : N * N) : Prop := may_precede a b.
Lemma sorted_app {A} (R : A -> A -> Prop) l1 l2 : StronglySorted R l1 -> StronglySorted R l2 ->
  (forall x y, In x l1 -> In y l2 -> R x y) -> StronglySorted R (l1 ++ l2).
Proof.
  induction 1 as [|a l S IH F]; intros S2 H; cbn; auto. constructor.
  - apply IH; auto. intros; apply H; auto; now right.
  - rewrite Forall_forall in *. intros x Hx. apply in_app_or in Hx as [Hx|Hx]; auto. apply H; auto. now left.
Qed.
Lemma same_sorted {A} (R : A -> A -> Prop) l : (forall x y, In x l -> In y l -> R x y) -> StronglySorted R l.
Proof.
  induction l as [|a l IH]; intros H; constructor.
  - apply IH. intros; apply H; now right.
  - apply Forall_forall. intros x Hx. apply H; [now left|now right].
Qed.
Lemma groups_sorted bs l : StronglySorted (fun x y => may_precede (b_key x) (b_key y)) bs ->
  StronglySorted (fun x y => may_precede (sv_key x) (sv_key y)) (groups bs l).
Proof.
  unfold groups. induction 1 as [|b r S IH F]; cbn; [constructor|]. apply sorted_app; auto.
  - apply same_sorted. intros x y Hx Hy. apply filter_In in Hx as (_ & Hx), Hy as (_ & Hy).
    apply match_b_key in Hx, Hy. rewrite <- Hx, <- Hy. right. split; [auto|lia].
  - intros x y Hx Hy. apply filter_In in Hx as (_ & Hx). apply in_flat_map in Hy as (c & Hc & Hy).
    apply filter_In in Hy as (_ & Hy). apply match_b_key in Hx, Hy. rewrite <- Hx, <- Hy.
    rewrite Forall_forall in F. now apply F.
Qed.
Definition keyed (s c : N) (x : sv) : bool := (sv_size x =? s) && (sv_scope x =? c).
Lemma filter_filter {A} (f g : A -> bool) l : filter f (filter g l) = filter (fun x => f x && g x) l.
Proof. induction l as [|a l IH]; cbn; [reflexivity|]. destruct (g a) eqn:G; cbn; destruct (f a); cbn; rewrite IH; auto. Qed.
Lemma groups_stable bs l s c : NoDup (map b_key bs) -> (forall x, In x l -> exists b, In b bs /\ match_b b x = true) ->
  filter (keyed s c) (groups bs l) = filter (keyed s c) l.
Proof.
  intros ND CV. unfold groups.
  assert (K : forall b x, keyed s c x = true -> match_b b x = true -> b_key b = (s, c)).
  { intros b x H M. apply match_b_key in M. rewrite M. unfold keyed in H. apply andb_true_iff in H as (H1 & H2).
    apply N.eqb_eq in H1, H2. unfold sv_key. now rewrite H1, H2. }
  assert (Q : (exists b, In b bs /\ b_key b = (s, c)) \/ forall b, In b bs -> b_key b <> (s, c)).
  { clear. induction bs as [|b r IH]; [right; intros b []|].
    destruct (N.eq_dec (b_size b) s) as [E1|E1]; [destruct (N.eq_dec (b_scope b) c) as [E2|E2]|].
    - left. exists b. split; [now left|]. unfold b_key. congruence.
    - destruct IH as [(x & H & E)|H]; [left; exists x; split; [now right|auto]|right].
      intros x [<-|Hx]; auto. unfold b_key. congruence.
    - destruct IH as [(x & H & E)|H]; [left; exists x; split; [now right|auto]|right].
      intros x [<-|Hx]; auto. unfold b_key. congruence. }
  destruct Q as [(b & Hb & Eb)|Q].
  - clear CV. induction bs as [|a r IH]; [destruct Hb|]. cbn [map] in ND. inversion ND as [|? ? Hn Hr]; subst.
    cbn [flat_map]. rewrite filter_app, filter_filter.
    assert (Ma : forall x, b_key a = (s, c) -> match_b a x = keyed s c x).
    { intros x E. unfold match_b, keyed. unfold b_key in E. injection E as -> ->. now rewrite (N.eqb_sym s), (N.eqb_sym c). }
    assert (N0 : forall r, (forall x, In x r -> b_key x <> (s, c)) -> filter (keyed s c) (flat_map (fun b => filter (match_b b) l) r) = []).
    { clear - K. intros r H. apply filter_nil_iff. intros x Hx. apply in_flat_map in Hx as (d & Hd & Hx).
      apply filter_In in Hx as (_ & Hx). destruct (keyed s c x) eqn:E; auto. exfalso. eapply H; eauto. }
    destruct Hb as [->|Hb].
    + rewrite N0, app_nil_r.
      * apply filter_ext. intros x. rewrite (Ma x Eb). apply andb_diag.
      * intros x Hx E. apply Hn. rewrite Eb, <- E. now apply in_map.
    + assert (Na : b_key a <> (s, c)) by (intros E; apply Hn; rewrite E, <- Eb; now apply in_map).
      replace (filter (fun x => keyed s c x && match_b a x) l) with (@nil sv).
      * cbn [app]. now apply IH.
      * symmetry. apply filter_nil_iff. intros x _. destruct (keyed s c x) eqn:E1; auto. destruct (match_b a x) eqn:E2; auto.
        exfalso. eapply Na, K; eauto.
  - transitivity (@nil sv).
    + apply filter_nil_iff. intros x Hx. apply in_flat_map in Hx as (d & Hd & Hx). apply filter_In in Hx as (_ & Hx).
      destruct (keyed s c x) eqn:E; auto. exfalso. eapply Q; eauto.
    + symmetry. apply filter_nil_iff. intros x Hx. destruct (CV x Hx) as (d & Hd & Md).
      destruct (keyed s c x) eqn:E; auto. exfalso. eapply Q; eauto.
Qed.

Lemma less_pre a b : less_key a b = true -> may_precede a b /\ a <> b.
Proof.
  destruct a as (a1, a2), b as (b1, b2). unfold less_key, may_precede. cbn. destruct (N.eqb_spec a1 b1); cbn; intros H; apply N.ltb_lt in H.
  - split; [right; lia|]. intros [= -> ->]. lia.
  - split; [left; lia|]. intros [= -> ->]. lia.
Qed.
Lemma nless_pre a b : less_key a b = false -> may_precede b a.
Proof.
  destruct a as (a1, a2), b as (b1, b2). unfold less_key, may_precede. cbn. destruct (N.eqb_spec a1 b1); cbn; intros H; apply N.ltb_ge in H; lia.
Qed.
Lemma less_key_eq a b : less_key a b = false -> less_key b a = false -> a = b.
Proof.
  intros H1 H2. apply nless_pre in H1, H2. destruct a, b. unfold may_precede in *. cbn in *. f_equal; lia.
Qed.
Lemma less_irr a : less_key a a = false.
Proof. destruct (less_key a a) eqn:E; auto. apply less_pre in E as (_ & E). congruence. Qed.
Lemma key_weak {A} (key : A -> N * N) : strict_weak (fun x y => less_key (key x) (key y)).
Proof.
  split; [intros; apply less_irr|]. split.
  - intros x y z H1 H2. apply less_pre in H1 as (H1 & N1), H2 as (H2 & N2).
    destruct (less_key (key x) (key z)) eqn:E; auto. apply nless_pre in E.
    exfalso. destruct (key x), (key y), (key z). unfold may_precede in *. cbn in *.
    apply N1. f_equal; lia.
  - intros x y z H1 H2 H3 H4. pose proof (less_key_eq _ _ H1 H2) as E1. pose proof (less_key_eq _ _ H3 H4) as E2.
    rewrite E1, E2, less_irr. auto.
Qed.
Lemma sorted_impl {A} (R S : A -> A -> Prop) l : (forall x y, R x y -> S x y) ->
  StronglySorted R l -> StronglySorted S l.
Proof. intros H. induction 1; constructor; auto. eapply Forall_impl; [|eassumption]. auto. Qed.

Lemma stable_less stable_sort l : sorts_stably stable_sort -> stably_sorted l (stable_sort less_sv l).
Proof.
  intros (S & St). destruct (S less_sv l (key_weak sv_key)) as (P & O). split; [exact P|]. split.
  - eapply sorted_impl; [|exact O]. intros x y H. now apply nless_pre.
  - intros s c. change (filter (keyed s c) (stable_sort less_sv l) = filter (keyed s c) l).
    destruct (filter (keyed s c) l) as [|x r] eqn:E.
    + apply filter_nil_iff. intros x Hx. rewrite filter_nil_iff in E. apply E.
      eapply Permutation_in; [symmetry; exact P|exact Hx].
    + assert (Kx : keyed s c x = true).
      { assert (I : In x (filter (keyed s c) l)) by (rewrite E; now left). now apply filter_In in I. }
      rewrite <- E. assert (Q : forall y, equiv less_sv x y = keyed s c y).
      { intros y. unfold keyed in *. apply andb_true_iff in Kx as (A & B). apply N.eqb_eq in A, B. subst s c.
        unfold equiv, less_sv. destruct (less_key (sv_key x) (sv_key y)) eqn:E1; cbn [negb andb].
        - symmetry. apply less_pre in E1 as (_ & E1). apply andb_false_iff.
          destruct (N.eqb_spec (sv_size y) (sv_size x)), (N.eqb_spec (sv_scope y) (sv_scope x)); auto.
          exfalso. apply E1. unfold sv_key. congruence.
        - destruct (less_key (sv_key y) (sv_key x)) eqn:E2; cbn [negb].
          + symmetry. apply less_pre in E2 as (_ & E2). apply andb_false_iff.
            destruct (N.eqb_spec (sv_size y) (sv_size x)), (N.eqb_spec (sv_scope y) (sv_scope x)); auto.
            exfalso. apply E2. unfold sv_key. congruence.
          + pose proof (less_key_eq _ _ E1 E2) as E3. unfold sv_key in E3. injection E3 as <- <-.
            now rewrite !N.eqb_refl. }
      rewrite <- (filter_ext _ _ Q), <- (filter_ext _ _ Q l). apply St, (key_weak sv_key).
Qed.

Theorem schedule_sort_ok sort stable_sort old l :
  sorts sort -> sorts_stably stable_sort -> N.of_nat (length l) < 2 ^ 32 ->
  exists r, schedule_sort sort stable_sort old l = Some r /\ stably_sorted l r.
Proof.
  intros SB SS Hn. unfold schedule_sort.
  assert (T0 : tinv [] []) by (constructor; [constructor|intros x []|intros b []]).
  destruct (tally_ok l [] [] 0 T0 ltac:(cbn; lia)) as ([bs|] & -> & T); cbn [bind]; [|eexists; split; [reflexivity|now apply stable_less]].
  specialize (T bs eq_refl). cbn [app] in T. destruct T as [ND CV CT].
  destruct (Nat.leb_spec (length bs) 1) as [H1|H1].
  - eexists. split; [reflexivity|]. split; [reflexivity|]. split; [|reflexivity].
    apply same_sorted. intros x y Hx Hy. destruct (CV x Hx) as (b & Hb & Mb). destruct (CV y Hy) as (c & Hc & Mc).
    assert (b = c) as <- by (destruct bs as [|? [|]]; cbn in *; try lia; intuition congruence).
    apply match_b_key in Mb, Mc. rewrite <- Mb, <- Mc. right. split; [auto|lia].
  - destruct (SB less_b bs (key_weak b_key)) as (P & SO). set (sb := sort less_b bs) in *.
    apply (sorted_impl _ (fun x y => may_precede (b_key x) (b_key y)) sb) in SO; [|intros x y H; now apply nless_pre].
    assert (ND' : NoDup (map b_key sb)) by (eapply Permutation_NoDup; [apply Permutation_map; exact P|exact ND]).
    assert (CV' : forall x, In x l -> exists b, In b sb /\ match_b b x = true).
    { intros x Hx. destruct (CV x Hx) as (b & Hb & M). exists b. split; [eapply Permutation_in; eauto|auto]. }
    assert (CT' : forall b, In b sb -> b_count b = N.of_nat (cntl b l)).
    { intros b Hb. apply CT. eapply Permutation_in; [symmetry; exact P|exact Hb]. }
    pose proof (groups_perm sb l ND' CV') as GP. pose proof (groups_len sb l CT') as GL.
    rewrite <- (Permutation_length GP) in GL.
    assert (Sc : scatter l (offsets sb 0) 0 (firstn (length l) (old ++ repeat (mkSv 0 0 0) (length l))) = Some (groups sb l)).
    { rewrite (scatter_ok l (offsets sb 0) [] 0 _ l eq_refl).
      - unfold groups. now rewrite offsets_flat.
      - apply offsets_lay; [lia|]. rewrite firstn_length, app_length, repeat_length. lia.
      - now rewrite offsets_key.
      - intros x Hx. destruct (CV' x Hx) as (b & Hb & M). destruct (offsets_in2 sb 0 b Hb) as (b' & Hb' & E).
        exists b'. split; [auto|]. now rewrite (match_b_ext _ _ _ E).
      - intros b Hb. destruct (offsets_in sb 0 b Hb) as (b' & Hb' & Ek & Ec). rewrite Ec, (CT' b' Hb'). f_equal. now apply cntl_ext.
      - rewrite offsets_fold. lia. }
    exists (groups sb l). split; [exact Sc|]. split; [exact GP|]. split; [now apply groups_sorted|].
    intros s c. now apply groups_stable.
Qed.
