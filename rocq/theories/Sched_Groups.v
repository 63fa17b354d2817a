From Verif Require Import Base Sched_Model Sched_Spec Sched_Proofs.
Local Open Scope N_scope.

Lemma tiles_app a b c g1 g2 : tiles a b g1 -> tiles b c g2 -> tiles a c (g1 ++ g2).
Proof. revert a. induction g1 as [|g r IH]; intros a; cbn; [now intros ->|]. intros (-> & H & T) T2. eauto. Qed.
Lemma tiles_le a n gs : tiles a n gs -> a <= n.
Proof. revert a. induction gs as [|g r IH]; intros a; cbn; [lia|]. intros (_ & H & T). apply IH in T. lia. Qed.
Lemma tiles_bound a n gs g : tiles a n gs -> In g gs -> a <= g_start g /\ g_start g < g_end g <= n.
Proof.
  revert a. induction gs as [|h r IH]; intros a; cbn; [tauto|]. intros (<- & H & T) [<-|Hg].
  - apply tiles_le in T. lia.
  - destruct (IH _ T Hg). lia.
Qed.
Lemma firstn_split {A} (l : list A) a b : (a <= b)%nat -> firstn b l = firstn a l ++ firstn (b - a) (skipn a l).
Proof.
  intros H. rewrite <- (firstn_skipn a l) at 1. rewrite firstn_app, firstn_firstn, firstn_length.
  replace (Nat.min b a) with a by lia. destruct (Nat.le_gt_cases a (length l)).
  - now replace (b - Nat.min a (length l))%nat with (b - a)%nat by lia.
  - rewrite (skipn_all2 l) by lia. now rewrite !firstn_nil.
Qed.
Lemma skipn_skipn' {A} (l : list A) a b : skipn a (skipn b l) = skipn (b + a) l.
Proof. revert l. induction b as [|b IH]; intros l; [reflexivity|]. destruct l; cbn; [now destruct a|apply IH]. Qed.
Lemma tiles_concat l gs : forall a n, tiles a n gs -> n <= N.of_nat (length l) ->
  flat_map (slice l) gs = firstn (N.to_nat n - N.to_nat a) (skipn (N.to_nat a) l).
Proof.
  induction gs as [|g r IH]; intros a n; cbn [tiles flat_map].
  - intros -> _. now rewrite Nat.sub_diag.
  - intros (E & H & T) Hn. rewrite (IH _ _ T Hn). unfold slice. rewrite E. apply tiles_le in T.
    rewrite (firstn_split (skipn (N.to_nat a) l) (N.to_nat (g_end g) - N.to_nat a) (N.to_nat n - N.to_nat a)) by lia.
    rewrite skipn_skipn'. f_equal. f_equal; [lia|]. f_equal. lia.
Qed.
Lemma nth_error_firstn' {A} (l : list A) n k : (k < n)%nat -> nth_error (firstn n l) k = nth_error l k.
Proof. revert n k. induction l as [|a l IH]; intros [|n] [|k] H; try lia; cbn; auto. apply IH. lia. Qed.
Lemma nth_error_skipn' {A} (l : list A) n k : nth_error (skipn n l) k = nth_error l (n + k).
Proof. revert n. induction l as [|a l IH]; intros [|n]; cbn; auto. now destruct k. Qed.
Lemma slice_in l g x : In x (slice l g) -> exists k, (N.to_nat (g_start g) <= k < N.to_nat (g_end g))%nat /\ nth_error l k = Some x.
Proof.
  unfold slice. intros H. apply In_nth_error in H as (k & E).
  assert (Hk : (k < N.to_nat (g_end g) - N.to_nat (g_start g))%nat).
  { assert (nth_error (firstn (N.to_nat (g_end g) - N.to_nat (g_start g)) (skipn (N.to_nat (g_start g)) l)) k <> None) as Q by congruence.
    apply nth_error_Some in Q. rewrite firstn_length in Q. lia. }
  exists (N.to_nat (g_start g) + k)%nat. split; [lia|].
  rewrite nth_error_firstn' in E by lia. now rewrite nth_error_skipn' in E.
Qed.

Lemma firstn_in {A} n (l : list A) x : In x (firstn n l) -> In x l.
Proof. revert l. induction n as [|n IH]; intros [|a l]; cbn; try tauto. intros [|]; auto. Qed.

(** Sizes along the schedule do not increase. *)
Definition desc (l : list sv) : Prop := forall i j x y, (i <= j)%nat -> nth_error l i = Some x -> nth_error l j = Some y ->
  may_precede (sv_key x) (sv_key y).
Lemma sorted_desc l : StronglySorted (fun x y => may_precede (sv_key x) (sv_key y)) l -> desc l.
Proof.
  induction 1 as [|a l S IH F]; intros i j x y Hij Ei Ej; [destruct i; discriminate|].
  rewrite Forall_forall in F. destruct i as [|i], j as [|j]; cbn in *; try lia.
  - injection Ei as ->. injection Ej as ->. right. split; [auto|lia].
  - injection Ei as ->. apply F. eapply nth_error_In; eauto.
  - eapply IH; [|exact Ei|exact Ej]. lia.
Qed.
Lemma desc_size l i j x y : desc l -> (i <= j)%nat -> nth_error l i = Some x -> nth_error l j = Some y -> sv_size y <= sv_size x.
Proof. intros D H Ei Ej. destruct (D i j x y H Ei Ej) as [Q|(Q & _)]; unfold sv_key in Q; cbn in Q; lia. Qed.

Definition uniform (l : list sv) (g : group) : Prop :=
  forall k x, (N.to_nat (g_start g) <= k < N.to_nat (g_end g))%nat -> nth_error l k = Some x -> sv_size x = g_size g.
Definition above (x : sv) (gs : list group) : Prop := forall g, In g gs -> sv_size x < g_size g.
Definition decreasing (gs : list group) : Prop := StronglySorted (fun g h => g_size h < g_size g) gs.

Lemma decreasing_snoc gs g : decreasing gs -> (forall h, In h gs -> g_size g < g_size h) -> decreasing (gs ++ [g]).
Proof.
  intros D H. apply sorted_app; auto; [repeat constructor|]. intros x y Hx [<-|[]]. auto.
Qed.

Lemma loop_ok s : desc s -> N.of_nat (length s) < 2 ^ 32 -> forall l cur i acc c,
  l = skipn (N.to_nat i - 1) s -> 0 < i -> (N.to_nat i - 1 < length s)%nat -> cur < i -> nth_error s (N.to_nat cur) = Some c ->
  (forall k x, (N.to_nat cur <= k < N.to_nat i)%nat -> nth_error s k = Some x -> sv_size x = sv_size c) ->
  tiles 0 cur acc -> (forall g, In g acc -> uniform s g) -> above c acc -> decreasing acc ->
  exists acc' cur' c', group_loop s l cur i acc = Some (acc', cur') /\ nth_error s (N.to_nat cur') = Some c' /\
    (forall k x, (N.to_nat cur' <= k < length s)%nat -> nth_error s k = Some x -> sv_size x = sv_size c') /\
    tiles 0 cur' acc' /\ (forall g, In g acc' -> uniform s g) /\ above c' acc' /\ decreasing acc'.
Proof.
  intros D Hn. induction l as [|x l IH]; intros cur i acc c El Hi Hlen Hc Ec Hu T U A Dc.
  { exfalso. assert (length (skipn (N.to_nat i - 1) s) = O) by (now rewrite <- El). rewrite skipn_length in *. lia. }
  assert (Ex : nth_error s (N.to_nat i - 1) = Some x).
  { rewrite <- (Nat.add_0_r (N.to_nat i - 1)), <- nth_error_skipn', <- El. reflexivity. }
  assert (El' : l = skipn (N.to_nat i) s).
  { replace (N.to_nat i) with (N.to_nat i - 1 + 1)%nat by lia. rewrite <- skipn_skipn', <- El. reflexivity. }
  cbn [group_loop]. destruct l as [|y r].
  { exists acc, cur, c. assert (Q : length (skipn (N.to_nat i) s) = O) by (now rewrite <- El'). rewrite skipn_length in Q.
    repeat split; auto. intros k z Hk. apply Hu. lia. }
  assert (Ey : nth_error s (N.to_nat i) = Some y).
  { rewrite <- (Nat.add_0_r (N.to_nat i)), <- nth_error_skipn', <- El'. reflexivity. }
  assert (Hin : (N.to_nat i < length s)%nat) by (apply nth_error_Some; congruence).
  rewrite u32_small by lia.
  assert (Exc : sv_size x = sv_size c) by (apply (Hu (N.to_nat i - 1)%nat); [lia|auto]).
  destruct (N.eqb_spec (sv_size x) (sv_size y)) as [E|E]; cbn [negb].
  - apply (IH cur (i + 1) acc c); auto; try lia.
    + rewrite El'. f_equal. lia.
    + intros k z Hk Ez. destruct (Nat.eq_dec k (N.to_nat i)) as [->|]; [congruence|]. apply (Hu k); [lia|auto].
  - rewrite Ec. cbn [bind].
    assert (Hlt : sv_size y < sv_size c).
    { pose proof (desc_size s (N.to_nat i - 1) (N.to_nat i) x y D ltac:(lia) Ex Ey). lia. }
    apply (IH i (i + 1) (acc ++ [mkGr (sv_size c) cur i]) y); auto; try lia.
    + rewrite El'. f_equal. lia.
    + intros k z Hk Ez. assert (k = N.to_nat i) as -> by lia. congruence.
    + eapply tiles_app; [exact T|]. cbn. auto.
    + intros g Hg. apply in_app_or in Hg as [Hg|[<-|[]]]; [auto|]. exact Hu.
    + intros g Hg. apply in_app_or in Hg as [Hg|[<-|[]]]; [|exact Hlt]. specialize (A g Hg). lia.
    + apply decreasing_snoc; auto.
Qed.

Lemma exists_last' {A} (l : list A) : l = [] \/ exists r a, l = r ++ [a].
Proof. destruct l as [|x l]; [auto|right]. destruct (exists_last (l := x :: l) ltac:(discriminate)) as (r & a & E). eauto. Qed.
Lemma last_nth {A} (l : list A) d : l <> [] -> nth_error l (length l - 1) = Some (last l d).
Proof.
  destruct (exists_last' l) as [->|(r & a & ->)]; [congruence|]. intros _.
  rewrite app_length, last_last. cbn [length]. replace (length r + 1 - 1)%nat with (length r) by lia.
  now rewrite nth_error_app2, Nat.sub_diag by lia.
Qed.

Theorem partition_ok l : l <> [] -> StronglySorted (fun x y => may_precede (sv_key x) (sv_key y)) l ->
  N.of_nat (length l) < 2 ^ 32 ->
  exists gs, partition l = Some gs /\ tiles 0 (N.of_nat (length l)) gs /\ flat_map (slice l) gs = l /\
    (forall g x, In g gs -> In x (slice l g) -> sv_size x = g_size g) /\
    (forall g, In g gs -> StronglySorted (fun x y => sv_scope x <= sv_scope y) (slice l g)) /\
    decreasing gs.
Proof.
  intros NE S Hn. assert (D := sorted_desc l S).
  assert (G : exists gs, partition l = Some gs /\ tiles 0 (N.of_nat (length l)) gs /\ (forall g, In g gs -> uniform l g) /\ decreasing gs).
  { destruct l as [|x r] eqn:El; [congruence|]. unfold partition. rewrite <- El in *. clear NE.
    assert (E0 : nth_error l (N.to_nat 0) = Some x) by (rewrite El; reflexivity).
    assert (L1 : (0 < length l)%nat) by (rewrite El; cbn; lia).
    assert (EL : nth_error l (length l - 1) = Some (last l x)) by (apply last_nth; rewrite El; discriminate).
    rewrite u32_small by lia. destruct (N.eqb_spec (sv_size x) (sv_size (last l x))) as [E|E].
    - eexists. split; [reflexivity|]. split; [cbn; split; [auto|]; split; [lia|auto]|]. split.
      + intros g [<-|[]] k y Hk Ey. cbn in Hk |- *. change (N.to_nat 0) with O in *.
        pose proof (desc_size l 0 k x y D ltac:(lia) E0 Ey).
        pose proof (desc_size l k (length l - 1) y (last l x) D ltac:(lia) Ey EL). lia.
      + repeat constructor.
    - destruct (loop_ok l D Hn l 0 1 [] x) as (acc & cur & c & -> & Ec & Hu & T & U & A & Dc); auto; try (cbn; lia).
      + change (N.to_nat 0) with O in *. change (N.to_nat 1) with 1%nat. intros k z Hk Ez. assert (k = O) as -> by lia. congruence.
      + intros g [].
      + constructor.
      + cbn [bind]. rewrite Ec. cbn [bind]. eexists. split; [reflexivity|].
        assert (N.to_nat cur < length l)%nat by (apply nth_error_Some; congruence). split; [|split].
        * eapply tiles_app; [exact T|]. cbn. split; [auto|]. split; [lia|auto].
        * intros g Hg. apply in_app_or in Hg as [Hg|[<-|[]]]; [auto|]. intros k z Hk. cbn in Hk. apply Hu. lia.
        * apply decreasing_snoc; auto. }
  destruct G as (gs & E & T & U & Dc). exists gs. split; [exact E|]. split; [exact T|]. split.
  { rewrite (tiles_concat l gs _ _ T) by lia. rewrite Nat2N.id. change (N.to_nat 0) with O. rewrite Nat.sub_0_r. cbn [skipn]. apply firstn_all. }
  assert (US : forall g x, In g gs -> In x (slice l g) -> sv_size x = g_size g).
  { intros g x Hg Hx. apply slice_in in Hx as (k & Hk & Ek). eapply U; eauto. }
  split; [exact US|]. split; [|exact Dc].
  intros g Hg.
  assert (Q : StronglySorted (fun x y => may_precede (sv_key x) (sv_key y)) (slice l g)).
  { assert (SS : forall n l, StronglySorted (fun x y => may_precede (sv_key x) (sv_key y)) l ->
       StronglySorted (fun x y => may_precede (sv_key x) (sv_key y)) (skipn n l)).
    { clear. induction n as [|n IH]; intros l H; [exact H|]. destruct l; [exact H|]. cbn. apply IH. now inversion H. }
    assert (SF : forall n l, StronglySorted (fun x y => may_precede (sv_key x) (sv_key y)) l ->
       StronglySorted (fun x y => may_precede (sv_key x) (sv_key y)) (firstn n l)).
    { clear. induction n as [|n IH]; intros l H; [constructor|]. destruct l; [exact H|]. cbn. inversion H as [|? ? H1 H2]; subst.
      constructor; [auto|]. rewrite Forall_forall in *. intros x Hx. apply H2. eapply firstn_in; eauto. }
    unfold slice. auto. }
  assert (Sz : forall x, In x (slice l g) -> sv_size x = g_size g) by eauto. clear - Q Sz.
  induction Q as [|a r Q IH F]; constructor.
  - apply IH. intros; apply Sz; now right.
  - rewrite Forall_forall in *. intros x Hx. specialize (F x Hx). unfold may_precede, sv_key in F. cbn in F.
    rewrite (Sz a) in F by now left. rewrite (Sz x) in F by now right. lia.
Qed.

(** Insertion sort meets the contracts. *)
Fixpoint ins {A} (lt : A -> A -> bool) (x : A) (l : list A) : list A :=
  match l with [] => [x] | y :: r => if lt y x then y :: ins lt x r else x :: l end.
Definition isort {A} (lt : A -> A -> bool) (l : list A) : list A := fold_right (ins lt) [] l.

Lemma ins_perm {A} (lt : A -> A -> bool) x l : Permutation (x :: l) (ins lt x l).
Proof.
  induction l as [|y r IH]; cbn; [auto|]. destruct (lt _ _); auto.
  rewrite perm_swap. now constructor.
Qed.
Lemma nlt_trans {A} (lt : A -> A -> bool) x y z : strict_weak lt ->
  lt y x = false -> lt z y = false -> lt z x = false.
Proof.
  intros (I & T & W) H1 H2. destruct (lt z x) eqn:E; auto.
  destruct (lt x y) eqn:E1; [rewrite (T z x y E E1) in H2; discriminate|].
  destruct (lt y z) eqn:E2; [rewrite (T y z x E2 E) in H1; discriminate|].
  destruct (W x y z E1 H1 E2 H2) as (_ & W'). congruence.
Qed.
Lemma ins_sorted {A} (lt : A -> A -> bool) x l : strict_weak lt -> StronglySorted (fun x y => lt y x = false) l ->
  StronglySorted (fun x y => lt y x = false) (ins lt x l).
Proof.
  intros SW. induction 1 as [|y r S IH F]; cbn; [repeat constructor|]. destruct (lt y x) eqn:E.
  - constructor; [exact IH|]. rewrite Forall_forall in *. intros z Hz.
    apply (Permutation_in _ (Permutation_sym (ins_perm lt x r))) in Hz as [<-|Hz]; [|auto].
    destruct (lt x y) eqn:E1; auto. destruct SW as (I & T & _). specialize (T _ _ _ E E1). rewrite I in T. congruence.
  - constructor; [now constructor|]. constructor; [auto|].
    rewrite Forall_forall in *. intros z Hz. eapply nlt_trans; eauto.
Qed.
Lemma isort_perm {A} (lt : A -> A -> bool) l : Permutation l (isort lt l).
Proof. induction l as [|x l IH]; cbn; [auto|]. etransitivity; [|apply ins_perm]. now constructor. Qed.
Lemma isort_sorts {A} : sorts (@isort A).
Proof.
  intros lt l SW. split; [apply isort_perm|]. induction l as [|x l IH]; cbn; [constructor|]. now apply ins_sorted.
Qed.
Lemma ins_filter {A} (lt : A -> A -> bool) u x l : strict_weak lt ->
  filter (equiv lt u) (ins lt x l) = filter (equiv lt u) (x :: l).
Proof.
  intros (I & T & W). induction l as [|y r IH]; [reflexivity|]. cbn [ins]. destruct (lt y x) eqn:E; [|reflexivity].
  cbn [filter] in *. rewrite IH. destruct (equiv lt u x) eqn:Kx, (equiv lt u y) eqn:Ky; auto.
  exfalso. unfold equiv in *. apply andb_true_iff in Kx as (A1 & B1), Ky as (C1 & D1).
  apply negb_true_iff in A1, B1, C1, D1. destruct (W y u x D1 C1 A1 B1). congruence.
Qed.
Lemma isort_stable {A} : sorts_stably (@isort A).
Proof.
  split; [apply isort_sorts|]. intros lt l u SW.
  induction l as [|x l IH]; [reflexivity|]. cbn [isort fold_right]. fold (isort lt l).
  rewrite ins_filter by auto. cbn [filter]. now rewrite IH.
Qed.
