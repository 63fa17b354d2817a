(** Scope compaction. *)
From Verif Require Import Base FreeSlots_Model FreeSlots_Spec FreeSlots_Proofs Var_Model Var_Spec Var_Inv Var_Count Var_Free Var_New Var_Create Var_Ops.
Local Open Scope N_scope.

(** ** Sorting *)
Lemma insert_sorted_in x l y : In y (insert_sorted x l) <-> y = x \/ In y l.
Proof.
  induction l as [|z r IH]; cbn; [intuition|]. destruct (x <=? z); cbn; rewrite ?IH; intuition.
Qed.
Lemma insert_sorted_sorted x l : StronglySorted N.le l -> StronglySorted N.le (insert_sorted x l).
Proof.
  induction l as [|z r IH]; cbn; intros H; [repeat constructor|].
  inversion H as [|? ? Hr Hz]; subst. destruct (N.leb_spec x z).
  - constructor; [exact H|]. constructor; [exact H0|]. eapply Forall_impl; [|exact Hz]. intros; simpl in *; lia.
  - constructor; [now apply IH|]. rewrite Forall_forall in *. intros y Hy. apply insert_sorted_in in Hy as [->|Hy]; [lia|auto].
Qed.
Lemma sort_in l y : In y (sort l) <-> In y l.
Proof. induction l as [|x r IH]; cbn; [reflexivity|]. rewrite insert_sorted_in. fold (sort r). rewrite IH. intuition. Qed.
Lemma sort_sorted l : StronglySorted N.le (sort l).
Proof. induction l; cbn; [constructor|]. now apply insert_sorted_sorted. Qed.
Lemma sort_length l : length (sort l) = length l.
Proof.
  induction l as [|x r IH]; [reflexivity|]. cbn. fold (sort r).
  assert (forall m, length (insert_sorted x m) = S (length m)) as E.
  { induction m as [|y m IHm]; cbn; [reflexivity|]. destruct (x <=? y); cbn; auto. }
  now rewrite E, IH.
Qed.
Lemma unique_cons2 x z r : unique (x :: z :: r) = if x =? z then unique (z :: r) else x :: unique (z :: r).
Proof. reflexivity. Qed.
Lemma unique_in l y : In y (unique l) <-> In y l.
Proof.
  induction l as [|x r IH]; [reflexivity|]. destruct r as [|z r]; [reflexivity|]. rewrite unique_cons2.
  destruct (N.eqb_spec x z) as [->|].
  - rewrite IH. cbn. intuition.
  - cbn [In]. rewrite IH. cbn. intuition.
Qed.
Lemma unique_sorted l : StronglySorted N.le l -> StronglySorted N.lt (unique l).
Proof.
  induction l as [|x r IH]; intros H; [constructor|]. destruct r as [|z r]; [repeat constructor|].
  inversion H as [|? ? Hr Hx]; subst. rewrite unique_cons2. destruct (N.eqb_spec x z) as [->|Hne]; [now apply IH|].
  constructor; [now apply IH|]. rewrite Forall_forall in *. intros y Hy. apply (proj1 (unique_in _ _)) in Hy.
  inversion Hr as [|? ? _ Hz]; subst. rewrite Forall_forall in Hz.
  assert (x <= z) by (apply Hx; now left). destruct Hy as [<-|Hy]; [lia|]. specialize (Hz y Hy). lia.
Qed.
Lemma unique_length l : (length (unique l) <= length l)%nat.
Proof.
  induction l as [|x r IH]; [cbn; lia|]. destruct r as [|z r]; [cbn; lia|]. rewrite unique_cons2.
  destruct (x =? z); cbn [length] in *; lia.
Qed.

Lemma lower_bound_lt l x y : StronglySorted N.lt l -> In x l -> x < y -> lower_bound l x < lower_bound l y.
Proof.
  induction l as [|z r IH]; intros H Hin Hlt; [easy|]. inversion H as [|? ? Hr Hz]; subst. cbn [lower_bound].
  rewrite Forall_forall in Hz. destruct Hin as [->|Hin].
  - destruct (N.ltb_spec x x); [lia|]. destruct (N.ltb_spec x y); [|lia]. lia.
  - specialize (Hz x Hin). destruct (N.ltb_spec z x); [|lia]. destruct (N.ltb_spec z y); [|lia].
    specialize (IH Hr Hin Hlt). lia.
Qed.
Lemma lower_bound_len l x : StronglySorted N.lt l -> In x l -> lower_bound l x < N.of_nat (length l).
Proof.
  induction l as [|z r IH]; intros H Hin; [easy|]. inversion H as [|? ? Hr Hz]; subst. cbn [lower_bound length].
  destruct (N.ltb_spec z x); [|lia]. destruct Hin as [->|Hin]; [lia|]. specialize (IH Hr Hin). lia.
Qed.

(** ** Static invariant under a change of scopes *)
Lemma stat_rescope f g al m m' h hx ts ts' ctr ctr' (sg : N -> N) :
  stat f al m h hx ts ctr -> (forall j, al j = true -> g j = set_vscope (f j) (sg j)) ->
  NoDup (map fst m') -> (forall k j, In (k, j) m' -> (exists k0, In (k0, j) m) /\ k = key_of (g j)) ->
  (forall j, al j = true -> sg j <= ctr') -> (forall x, In x ts' -> x <= ctr') -> 1 <= ctr' < 2 ^ 32 ->
  stat g al m' h hx ts' ctr'.
Proof.
  intros S E Nm Hm Hsg Hts Hctr.
  assert (D : forall j, al j = true -> v_dep (g j) = v_dep (f j)) by (intros; now rewrite E).
  assert (X : forall j, al j = true -> v_lit (g j) = v_lit (f j) /\ v_size (g j) = v_size (f j) /\
     v_kind (g j) = v_kind (f j) /\ v_wptr (g j) = v_wptr (f j) /\ v_retain (g j) = v_retain (f j) /\
     is_evaluated (g j) = is_evaluated (f j)) by (intros; rewrite E by auto; repeat split).
  constructor; auto.
  - intros j Hj. rewrite E by auto. apply (s_wf _ _ _ _ _ _ _ S j Hj).
  - intros j d Hj Hd. rewrite D in Hd by auto. eapply (s_dep _ _ _ _ _ _ _ S); eauto.
  - destruct (s_rank _ _ _ _ _ _ _ S) as (rk & R). exists rk. intros j d Hj Hd. rewrite D in Hd by auto. auto.
  - intros j Hj Hw. destruct (X j Hj) as (_&_&Ek&Ew&_&_). rewrite Ew in Hw.
    destruct (s_wp _ _ _ _ _ _ _ S j Hj Hw) as (K & d & Hd & Hn & He).
    assert (Ad : al d = true) by (apply (s_dep _ _ _ _ _ _ _ S j); auto; rewrite Hd; simpl; auto).
    destruct (X d Ad) as (_&_&_&_&_&Ev).
    rewrite Ek, D by auto. split; [exact K|]. exists d. rewrite Ev. auto.
  - intros j Hj Hr. destruct (X j Hj) as (El&Es&_&_&Er&Ev0). rewrite Er in Hr.
    destruct (s_ret _ _ _ _ _ _ _ S j Hj Hr) as (K & d & Hd & Hn & He & Hl & Hs).
    assert (Ad : al d = true) by (apply (s_dep _ _ _ _ _ _ _ S j); auto; rewrite Hd; simpl; auto).
    destruct (X d Ad) as (El'&Es'&_&_&_&Ev).
    rewrite Ev0, D, El, Es by auto. split; [exact K|]. exists d. rewrite Ev, El', Es'. auto.
  - intros k i Hi. destruct (Hm k i Hi) as ((k0 & H0) & ->).
    destruct (s_lvn _ _ _ _ _ _ _ S k0 i H0) as (A & B & C). destruct (X i A) as (_&_&_&_&_&Ev).
    rewrite Ev. auto.
  - apply S.
  - apply S.
  - intros j Hj He Hr. destruct (X j Hj) as (El&Es&_&_&Er&Ev). rewrite El, Es.
    apply (s_hown _ _ _ _ _ _ _ S); congruence.
  - intros j k Hj Hje Hjr Hk Hke Hkr. destruct (X j Hj) as (El&_&_&_&Er&Ev). destruct (X k Hk) as (El'&_&_&_&Er'&Ev').
    rewrite El, El'. apply (s_hinj _ _ _ _ _ _ _ S); congruence.
  - intros p Hp. destruct (s_hall _ _ _ _ _ _ _ S p Hp) as [|(j & A & B & C & Hl)]; [auto|right].
    exists j. destruct (X j A) as (El&_&_&_&Er&Ev). rewrite Ev, Er, El; auto.
  - intros j Hj. rewrite E by auto. cbn. auto.
Qed.

Lemma cnts_same f g al n own ownse todo :
  cnts f al n own ownse todo ->
  (forall j, v_rc (g j) = v_rc (f j) /\ v_se (g j) = v_se (f j) /\ v_dep (g j) = v_dep (f j) /\ v_wptr (g j) = v_wptr (f j)) ->
  cnts g al n own ownse todo.
Proof.
  intros C E.
  assert (R : forall j, refs g al n j = refs f al n j).
  { intros j. apply sumn_ext. intros k _. unfold cnt. destruct (E k) as (_&_&->&->). reflexivity. }
  assert (Rs : forall j, refs_se g al n j = refs_se f al n j).
  { intros j. apply sumn_ext. intros k _. unfold cnt_se. destruct (E k) as (_&_&->&->). reflexivity. }
  constructor; try apply C.
  - intros j Hj. destruct (E j) as (->&->&_). now apply (c_free _ _ _ _ _ _ C).
  - intros j Hj. rewrite R. destruct (E j) as (->&_). now apply (c_rc _ _ _ _ _ _ C).
  - intros j Hj. rewrite Rs. destruct (E j) as (_&->&_). now apply (c_se _ _ _ _ _ _ C).
  - intros j Hj. destruct (E j) as (->&->&_). now apply (c_todo _ _ _ _ _ _ C).
  - intros j Hj. destruct (E j) as (->&->&_). now apply (c_live _ _ _ _ _ _ C).
Qed.

(** ** Rebuilding the table *)
Lemma rebuild_spec l (nk : N -> key) m : forall acc,
  (forall k i, In (k, i) m -> exists v, nth_error l (N.to_nat i) = Some v /\ key_of v = nk i) ->
  NoDup (map nk (map snd m) ++ map fst acc) ->
  rebuild l m acc = Some (rev (map (fun e => (nk (snd e), snd e)) m) ++ acc).
Proof.
  induction m as [|(k, i) r IH]; intros acc Hv Nd; [reflexivity|]. cbn [rebuild map rev].
  destruct (Hv k i (or_introl eq_refl)) as (v & E & Ek). rewrite E. cbn [bind]. rewrite Ek.
  cbn in Nd. inversion Nd as [|? ? Hn Nd']; subst.
  assert (Ef : find_lvn (nk i) acc = None).
  { apply find_lvn_none. intros H. apply Hn. apply in_or_app. now right. }
  unfold emplace_lvn. rewrite Ef. rewrite IH.
  - cbn [snd]. now rewrite <- app_assoc.
  - intros k' i' H. apply (Hv k'). now right.
  - cbn. eapply Permutation_NoDup; [|exact Nd]. apply Permutation_middle.
Qed.

Lemma NoDup_rekey (m : list (key * N)) (ok nk : N -> key) :
  NoDup (map fst m) -> (forall k i, In (k, i) m -> k = ok i) ->
  (forall k i k' j, In (k, i) m -> In (k', j) m -> nk i = nk j -> ok i = ok j) ->
  NoDup (map nk (map snd m)).
Proof.
  induction m as [|(k, i) r IH]; intros Nd Hk Hinj; [constructor|]. cbn in *.
  inversion Nd as [|? ? Hn Nd']; subst. constructor.
  - intros H. apply in_map_iff in H as (j & E & H). apply in_map_iff in H as ((k', j') & E' & H). cbn in E'; subst j'.
    apply Hn. rewrite (Hk k i (or_introl eq_refl)).
    rewrite (Hinj k i k' j) by (auto; try (now left); try (now right)).
    rewrite <- (Hk k' j) by (now right). now apply (in_map fst) in H.
  - apply IH; auto. intros k1 i1 k2 i2 H1 H2. apply (Hinj k1 i1 k2 i2); now right.
Qed.

(** ** Compaction *)
Definition dynlist (s : st) : list N := unique (sort (collected s)).

Lemma referenced_al s al own ownse hx j : INV s al own ownse [] hx -> referenced (V s j) = al j.
Proof.
  intros I. destruct (al j) eqn:E.
  - now apply (al_jitc _ _ _ _ _ _ I).
  - destruct (c_free _ _ _ _ _ _ (I_cnt _ _ _ _ _ _ I) j E) as (A & B). unfold referenced. now rewrite A, B.
Qed.

Lemma collected_in s al own ownse hx : INV s al own ownse [] hx ->
  (forall j, al j = true -> SCOPE_DYNAMIC <= v_scope (V s j) -> In (v_scope (V s j)) (dynlist s)) /\
  (forall x, In x (tscope s) -> SCOPE_DYNAMIC <= x -> In x (dynlist s)).
Proof.
  intros I. unfold dynlist. split.
  - intros j Hj Hs. apply unique_in, sort_in. unfold collected. apply in_or_app. left.
    pose proof (al_range _ _ _ _ _ _ _ I Hj) as Hr. unfold sz in Hr.
    apply in_flat_map. exists (V s j). split.
    + unfold V. destruct (vars s) as [|v0 r]; [cbn in Hr; lia|]. cbn [tl].
      destruct (N.to_nat j) as [|k] eqn:Ek; [lia|]. cbn. apply nth_In. cbn in Hr. lia.
    + rewrite (referenced_al _ _ _ _ _ _ I), Hj. unfold dyn. destruct (N.leb_spec SCOPE_DYNAMIC (v_scope (V s j))); [now left|lia].
  - intros x Hx Hs. apply unique_in, sort_in. unfold collected. apply in_or_app. right.
    apply in_flat_map. exists x. split; auto. unfold dyn. destruct (N.leb_spec SCOPE_DYNAMIC x); [now left|lia].
Qed.

Lemma flat_map_len1 {A} (f : A -> list N) l : (forall x, (length (f x) <= 1)%nat) -> (length (flat_map f l) <= length l)%nat.
Proof. intros H. induction l as [|a l IH]; cbn; [lia|]. rewrite app_length. specialize (H a). lia. Qed.

Lemma dynlist_len s : 0 < sz s -> N.of_nat (length (dynlist s)) + 1 <= sz s + N.of_nat (length (tscope s)).
Proof.
  intros Hs. unfold dynlist. pose proof (unique_length (sort (collected s))) as H. rewrite sort_length in H.
  unfold collected in *. rewrite app_length in H.
  assert (L1 : (length (flat_map (fun v => if referenced v then dyn (v_scope v) else []) (tl (vars s))) <= length (tl (vars s)))%nat).
  { apply flat_map_len1. intros v. unfold dyn. destruct (referenced v); [|cbn; lia]. destruct (_ <=? _); cbn; lia. }
  assert (L2 : (length (flat_map dyn (tscope s)) <= length (tscope s))%nat).
  { apply flat_map_len1. intros v. unfold dyn. destruct (_ <=? _); cbn; lia. }
  unfold sz in *. destruct (vars s); cbn in *; lia.
Qed.

Lemma remap_dyn s x : In x (dynlist s) -> N.of_nat (length (dynlist s)) + 2 < 2 ^ 32 -> SCOPE_DYNAMIC <= x ->
  remap (dynlist s) x = SCOPE_DYNAMIC + lower_bound (dynlist s) x /\
  lower_bound (dynlist s) x < N.of_nat (length (dynlist s)).
Proof.
  intros Hin Hl Hx. assert (So : StronglySorted N.lt (dynlist s)) by apply unique_sorted, sort_sorted.
  pose proof (lower_bound_len _ _ So Hin). unfold remap, SCOPE_DYNAMIC in *. destruct (N.ltb_spec x 2); [lia|].
  rewrite (u32_small (lower_bound (dynlist s) x)) by lia. rewrite u32_small by lia. auto.
Qed.

Lemma remap_lt s x y : (2 <= x -> In x (dynlist s)) -> (2 <= y -> In y (dynlist s)) ->
  N.of_nat (length (dynlist s)) + 2 < 2 ^ 32 -> x < y -> remap (dynlist s) x < remap (dynlist s) y.
Proof.
  intros Hx Hy Hl Hlt. destruct (N.lt_ge_cases y 2) as [Y|Y].
  - unfold remap, SCOPE_DYNAMIC. destruct (N.ltb_spec x 2); [|lia]. destruct (N.ltb_spec y 2); [|lia]. lia.
  - destruct (remap_dyn s y) as (-> & _); auto. destruct (N.lt_ge_cases x 2) as [X|X].
    + unfold remap, SCOPE_DYNAMIC in *. destruct (N.ltb_spec x 2); [|lia]. lia.
    + destruct (remap_dyn s x) as (-> & _); auto.
      pose proof (lower_bound_lt (dynlist s) x y (unique_sorted _ (sort_sorted _)) (Hx X) Hlt). lia.
Qed.
Lemma remap_inj s x y : (2 <= x -> In x (dynlist s)) -> (2 <= y -> In y (dynlist s)) ->
  N.of_nat (length (dynlist s)) + 2 < 2 ^ 32 -> remap (dynlist s) x = remap (dynlist s) y -> x = y.
Proof.
  intros Hx Hy Hl E. destruct (N.lt_trichotomy x y) as [H|[H|H]]; auto.
  - pose proof (remap_lt s x y Hx Hy Hl H). lia.
  - pose proof (remap_lt s y x Hy Hx Hl H). lia.
Qed.
Lemma remap_le s x : (2 <= x -> In x (dynlist s)) -> N.of_nat (length (dynlist s)) + 2 < 2 ^ 32 ->
  remap (dynlist s) x <= 1 + N.of_nat (length (dynlist s)).
Proof.
  intros Hx Hl. destruct (N.lt_ge_cases x 2) as [X|X].
  - unfold remap, SCOPE_DYNAMIC. destruct (N.ltb_spec x 2); [|lia]. lia.
  - destruct (remap_dyn s x) as (-> & H); auto. unfold SCOPE_DYNAMIC. lia.
Qed.

Lemma key_vscope v x : key_of (set_vscope v x) = x :: tl (key_of v).
Proof. reflexivity. Qed.

Lemma compact_ok s al own ownse hx :
  INV s al own ownse [] hx -> sz s + N.of_nat (length (tscope s)) + 4 < 2 ^ 32 ->
  exists s', compact_scopes s = Some s' /\ INV s' al own ownse [] hx /\
    (forall j, V s' j = if al j then set_vscope (V s j) (remap (dynlist s) (v_scope (V s j))) else V s j) /\
    tscope s' = map (remap (dynlist s)) (tscope s) /\ sctr s' = 1 + N.of_nat (length (dynlist s)) /\
    heap s' = heap s /\ length (vars s') = length (vars s) /\
    (forall k i, In (k, i) (lvn s) -> In (key_of (V s' i), i) (lvn s')) /\
    length (tscope s') = length (tscope s).
Proof.
  intros I Hroom. pose proof (I_stat _ _ _ _ _ _ I) as S. pose proof (I_len _ _ _ _ _ _ I) as Hlen.
  pose proof (dynlist_len s (proj1 Hlen)) as DL. destruct (collected_in _ _ _ _ _ I) as (C1 & C2).
  unfold SCOPE_DYNAMIC in C1, C2.
  assert (HL : N.of_nat (length (dynlist s)) + 2 < 2 ^ 32) by lia.
  unfold compact_scopes. fold (dynlist s).
  set (fx := fun v => if referenced v then set_vscope v (remap (dynlist s) (v_scope v)) else v).
  set (vs := match vars s with [] => [] | v0 :: r => v0 :: map fx r end).
  assert (EVs : forall j, nth (N.to_nat j) vs var0 = if al j then set_vscope (V s j) (remap (dynlist s) (v_scope (V s j))) else V s j).
  { intros j. rewrite <- (referenced_al _ _ _ _ _ j I). unfold vs, V.
    destruct (vars s) as [|v0 r] eqn:Ev.
    - destruct (N.to_nat j); reflexivity.
    - destruct (N.to_nat j) as [|k] eqn:Ek.
      + cbn. assert (R0 : referenced v0 = false).
        { pose proof (referenced_al _ _ _ _ _ 0 I) as R. unfold V in R. rewrite Ev in R. change (N.to_nat 0) with O in R. cbn in R. rewrite R.
          destruct (al 0) eqn:A0; auto. apply (al_range _ _ _ _ _ _ _ I) in A0. lia. }
        now rewrite R0.
      + cbn. change var0 with (fx var0) at 1. rewrite map_nth. reflexivity. }
  assert (ELs : length vs = length (vars s)).
  { unfold vs. destruct (vars s); cbn; [reflexivity|]. now rewrite map_length. }
  set (nk := fun i => key_of (nth (N.to_nat i) vs var0)).
  assert (AL : forall k i, In (k, i) (lvn s) -> al i = true /\ k = key_of (V s i)).
  { intros k i H. destruct (s_lvn _ _ _ _ _ _ _ S k i H) as (A & _ & B). auto. }
  assert (NK : NoDup (map nk (map snd (lvn s)))).
  { apply (NoDup_rekey _ (fun i => key_of (V s i))).
    - apply S.
    - intros k i H. now apply AL.
    - intros k i k' j H H'. destruct (AL _ _ H) as (Ai & _). destruct (AL _ _ H') as (Aj & _).
      unfold nk. rewrite !EVs, Ai, Aj, !key_vscope. intros E. injection E as E1 E2.
      unfold key_of. f_equal; [|exact E2].
      eapply remap_inj; eauto; intros; auto. }
  rewrite (rebuild_spec vs nk (lvn s) []).
  3: { cbn. rewrite app_nil_r. exact NK. }
  2: { intros k i H. destruct (AL _ _ H) as (Ai & _). pose proof (al_range _ _ _ _ _ _ _ I Ai) as Hr.
       exists (nth (N.to_nat i) vs var0). split; [|reflexivity]. apply nth_error_nth'. rewrite ELs. unfold sz in Hr. lia. }
  cbn [bind]. rewrite app_nil_r.
  unfold SCOPE_DYNAMIC. rewrite (u32_small (N.of_nat (length (dynlist s)))) by lia.
  change (2 - 1) with 1. rewrite u32_small by lia.
  set (s' := mkSt vs (unused s) (rev (map (fun e => (nk (snd e), snd e)) (lvn s))) (map (remap (dynlist s)) (tscope s))
                  (1 + N.of_nat (length (dynlist s))) (heap s)).
  exists s'. split; [reflexivity|].
  assert (EV : forall j, V s' j = if al j then set_vscope (V s j) (remap (dynlist s) (v_scope (V s j))) else V s j).
  { intros j. apply EVs. }
  split; [|split; [exact EV|]].
  - constructor.
    + change (vars s') with vs. rewrite ELs. eapply cnts_same; [apply I|].
      intros j. rewrite EV. destruct (al j); repeat split.
    + cbn [s' lvn heap tscope sctr].
      eapply (stat_rescope (V s) (V s') al (lvn s) _ _ _ (tscope s) _ (sctr s) _
                (fun j => remap (dynlist s) (v_scope (V s j))) S).
      * intros j Hj. now rewrite EV, Hj.
      * rewrite map_rev. apply (Permutation_NoDup (Permutation_rev _)). rewrite map_map. cbn. rewrite <- map_map. exact NK.
      * intros k j H. apply in_rev in H. apply in_map_iff in H as ((k0, i) & E & H). cbn in E. injection E as <- <-.
        split; [eauto|]. reflexivity.
      * intros j Hj. apply remap_le; auto.
      * intros x Hx. apply in_map_iff in Hx as (y & <- & Hy). apply remap_le; auto.
      * lia.
    + destruct (I_slots _ _ _ _ _ _ I) as (F & HF & HFin). exists F. split; [exact HF|].
      unfold sz. change (vars s') with vs. rewrite ELs. exact HFin.
    + unfold sz. change (vars s') with vs. rewrite ELs. apply I.
  - split; [reflexivity|]. split; [reflexivity|]. split; [reflexivity|]. split; [exact ELs|]. split.
    + intros k i H. cbn [s' lvn]. rewrite <- in_rev. apply in_map_iff. exists (k, i). split; auto.
    + cbn. apply map_length.
Qed.

(** ** New scopes *)

(** From [s] to [s'] all scopes were renamed by [ro], and nothing else changed. *)
Record rescoped (ro : N -> N) (s : st) (al : N -> bool) (s' : st) : Prop := {
  rs_V : forall j, V s' j = if al j then set_vscope (V s j) (ro (v_scope (V s j))) else V s j;
  rs_mono : forall x y, in_use s x -> in_use s y -> x < y -> ro x < ro y;
  rs_res : forall x, x < SCOPE_DYNAMIC -> ro x = x;
  rs_heap : heap s' = heap s;
  rs_len : length (vars s') = length (vars s);
  rs_lvn : forall k i, In (k, i) (lvn s) -> In (key_of (V s' i), i) (lvn s') }.

Lemma in_use_al s al own ownse hx x : INV s al own ownse [] hx ->
  in_use s x -> In x (tscope s) \/ exists j, al j = true /\ v_scope (V s j) = x.
Proof.
  intros I [|(i & v & H0 & Hv & R & E)]; [auto|right]. apply vget_lt in Hv as (_ & ->).
  exists i. split; auto. now rewrite (referenced_al _ _ _ _ _ _ I) in R.
Qed.

Lemma in_use_le s al own ownse hx x : INV s al own ownse [] hx -> in_use s x -> x <= sctr s.
Proof.
  intros I H. destruct (in_use_al _ _ _ _ _ _ I H) as [H'|(j & Hj & <-)].
  - now apply (s_ts _ _ _ _ _ _ _ (I_stat _ _ _ _ _ _ I)).
  - now apply (s_scope _ _ _ _ _ _ _ (I_stat _ _ _ _ _ _ I)).
Qed.

Lemma scope_next_ok s al own ownse hx :
  INV s al own ownse [] hx -> sz s + N.of_nat (length (tscope s)) + 4 < 2 ^ 32 ->
  exists s' c ro, scope_next s = Some (s', c) /\ sctr s' = c /\ INV s' al own ownse [] hx /\
    rescoped ro s al s' /\ tscope s' = map ro (tscope s) /\
    (forall x, in_use s x -> ro x < c) /\ c < 2 ^ 32 /\ (sctr s <> 2 ^ 32 - 1 -> forall x, ro x = x).
Proof.
  intros I Hroom. pose proof (I_stat _ _ _ _ _ _ I) as S. pose proof (s_ctr _ _ _ _ _ _ _ S) as Hc.
  assert (UP : forall s1, INV s1 al own ownse [] hx -> sctr s1 < 2 ^ 32 - 1 ->
             INV (with_scope s1 (tscope s1) (sctr s1 + 1)) al own ownse [] hx).
  { intros s1 I1 Hlt. pose proof (I_stat _ _ _ _ _ _ I1) as S1. constructor; try apply I1.
    change (V (with_scope s1 (tscope s1) (sctr s1 + 1))) with (V s1). cbn [with_scope lvn heap tscope sctr].
    eapply (stat_rescope (V s1) (V s1) al (lvn s1) _ _ _ _ _ _ _ (fun j => v_scope (V s1 j)) S1).
    - intros j _. now destruct (V s1 j).
    - apply S1.
    - intros k j H. split; [eauto|]. destruct (s_lvn _ _ _ _ _ _ _ S1 k j H) as (_ & _ & <-). reflexivity.
    - intros j Hj. pose proof (s_scope _ _ _ _ _ _ _ S1 j Hj). lia.
    - intros x Hx. pose proof (s_ts _ _ _ _ _ _ _ S1 x Hx). lia.
    - pose proof (s_ctr _ _ _ _ _ _ _ S1). lia. }
  unfold scope_next. destruct (N.eqb_spec (sctr s) (2 ^ 32 - 1)) as [E|E].
  - destruct (compact_ok _ _ _ _ _ I Hroom) as (s1 & E1 & I1 & EV & Et & Ec & Eh & El & Hl & _).
    rewrite E1. cbn [bind]. pose proof (I_len _ _ _ _ _ _ I). pose proof (dynlist_len s ltac:(lia)).
    rewrite u32_small by lia. rewrite Ec in *.
    destruct (collected_in _ _ _ _ _ I) as (C1 & C2). unfold SCOPE_DYNAMIC in C1, C2.
    assert (HL : N.of_nat (length (dynlist s)) + 2 < 2 ^ 32) by lia.
    assert (CU : forall x, in_use s x -> 2 <= x -> In x (dynlist s)).
    { intros x Hx H2. destruct (in_use_al _ _ _ _ _ _ I Hx) as [H'|(j & Hj & <-)]; auto. }
    exists (with_scope s1 (tscope s1) (1 + N.of_nat (length (dynlist s)) + 1)),
           (1 + N.of_nat (length (dynlist s)) + 1), (remap (dynlist s)).
    split; [reflexivity|]. split; [reflexivity|]. split.
    { rewrite <- Ec. apply UP; auto. rewrite Ec. lia. }
    split; [|split; [exact Et|split; [|split; [lia|congruence]]]].
    + constructor; auto.
      * intros x y Hx Hy. apply remap_lt; auto.
      * intros x Hx. unfold remap. destruct (N.ltb_spec x SCOPE_DYNAMIC); [reflexivity|lia].
    + intros x Hx. pose proof (remap_le s x (CU x Hx) HL). lia.
  - cbn [bind]. rewrite u32_small by lia.
    exists (with_scope s (tscope s) (sctr s + 1)), (sctr s + 1), (fun x => x).
    split; [reflexivity|]. split; [reflexivity|]. split; [apply UP; auto; lia|].
    split; [|split; [cbn; now rewrite map_id|split; [|split; [lia|auto]]]].
    + constructor; auto.
      * intros j. change (V (with_scope s (tscope s) (sctr s + 1)) j) with (V s j).
        destruct (al j); auto. now destruct (V s j).
      * intros k i H. change (V (with_scope s (tscope s) (sctr s + 1)) i) with (V s i).
        destruct (s_lvn _ _ _ _ _ _ _ S k i H) as (_ & _ & ->). exact H.
    + intros x Hx. pose proof (in_use_le _ _ _ _ _ _ I Hx). lia.
Qed.

Lemma set_scope_ok s al own ownse hx t c : INV s al own ownse [] hx ->
  (forall x, In x t -> x <= c) -> sctr s <= c < 2 ^ 32 -> INV (with_scope s t c) al own ownse [] hx.
Proof.
  intros I Ht Hc. pose proof (I_stat _ _ _ _ _ _ I) as S1. constructor; try apply I.
  change (V (with_scope s t c)) with (V s). cbn [with_scope lvn heap tscope sctr].
  eapply (stat_rescope (V s) (V s) al (lvn s) _ _ _ _ _ _ _ (fun j => v_scope (V s j)) S1); auto.
  - intros j _. now destruct (V s j).
  - apply S1.
  - intros k j H. split; [eauto|]. destruct (s_lvn _ _ _ _ _ _ _ S1 k j H) as (_ & _ & <-). reflexivity.
  - intros j Hj. pose proof (s_scope _ _ _ _ _ _ _ S1 j Hj). lia.
  - pose proof (s_ctr _ _ _ _ _ _ _ S1). lia.
Qed.

Lemma rescoped_trans ro s al own ownse hx s' o : INV s al own ownse [] hx -> rescoped ro s al s' -> trans s al s' al o.
Proof.
  intros I R. constructor.
  - unfold sz. rewrite (rs_len _ _ _ _ R). lia.
  - intros j Hj. left. now rewrite (rs_V _ _ _ _ R), Hj.
  - intros j Hj. rewrite (rs_V _ _ _ _ R), Hj. reflexivity.
  - intros i Hi _ _ H. eapply (rs_lvn _ _ _ _ R); eauto.
  - intros i Hi _ _. rewrite (rs_V _ _ _ _ R), Hi. reflexivity.
Qed.
