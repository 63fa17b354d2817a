From Verif Require Import Base Sched_Model Trav_Model Trav_Spec Trav_Proofs.
Local Open Scope nat_scope.

(** ** Every visit makes progress *)
Definition w (gen x : N) : nat := if (x =? 2 * gen + 1)%N then 0 else if (x =? 2 * gen)%N then 1 else 2.
Fixpoint unseen (n : nat) (gen : N) (f : nat -> N) : nat :=
  match n with O => 0 | S n => unseen n gen f + w gen (f n) end.

Lemma unseen_fset_out : forall n gen f i x, n <= i -> unseen n gen (fset f i x) = unseen n gen f.
Proof.
  induction n as [|n IH]; intros gen f i x L; cbn; [reflexivity|]. rewrite IH by lia. unfold fset at 1.
  destruct (Nat.eqb_spec n i); [lia|reflexivity].
Qed.
Lemma unseen_fset : forall n gen f i x, i < n -> unseen n gen (fset f i x) + w gen (f i) = unseen n gen f + w gen x.
Proof.
  induction n as [|n IH]; intros gen f i x L; [lia|]. cbn. unfold fset at 2. destruct (Nat.eqb_spec n i) as [->|NE].
  - rewrite unseen_fset_out by lia. lia.
  - specialize (IH gen f i x ltac:(lia)). lia.
Qed.
Lemma w_mark : forall gen f i d, ~ seen gen f (i, d) -> w gen (stamp gen d) < w gen (f i).
Proof.
  intros gen f i d NS. unfold seen in NS. cbn [fst snd] in NS. unfold w. destruct d as [|d]; [rewrite stamp_0|rewrite stamp_S].
  - rewrite N.eqb_refl. destruct (N.eqb_spec (f i) (2 * gen + 1)); [exfalso; apply NS; auto|]. destruct (f i =? 2 * gen)%N; lia.
  - destruct (N.eqb_spec (2 * gen) (2 * gen + 1)); [exfalso; clear - e; lia|]. rewrite N.eqb_refl.
    destruct (N.eqb_spec (f i) (2 * gen + 1)); [exfalso; apply NS; auto|].
    destruct (N.eqb_spec (f i) (2 * gen)); [exfalso; apply NS; right; split; [discriminate|assumption]|]. lia.
Qed.
Lemma unseen_max : forall n gen f, unseen n gen f <= 2 * n.
Proof.
  induction n as [|n IH]; intros gen f; cbn; [lia|]. specialize (IH gen f). unfold w. destruct (f n =? 2 * gen + 1)%N; [lia|]. destruct (f n =? 2 * gen)%N; lia.
Qed.

Section G.
Variable g : list node.
Variables gen size : N.
Hypothesis CL : closed g.
Notation un s := (unseen (length g) gen (scratch s)).
Definition pot (s : st) : nat := length (later s) + un s.
Definition is_defer (a : action) : bool := match a with Defer _ _ => true | _ => false end.

(** the result is a state or an error raised on purpose, and the potential does not grow *)
Definition fine (s : st) (extra : nat) (r : res) : Prop :=
  match r with
  | Done s' => un s' <= un s /\ pot s' <= pot s + extra
  | Raised _ => True
  | _ => False
  end.
Lemma fine_actions : forall visit b, (forall i d s, i < length g -> un s < b -> fine s 0 (visit i d s)) ->
  forall acts s, un s < b -> (forall j e, In (Visit j e) acts -> j < length g) ->
  fine s (length (filter is_defer acts)) (run_actions visit acts s).
Proof.
  intros visit b V acts. induction acts as [|[j e|j e] acts IH]; intros s U I; cbn [run_actions filter is_defer].
  - cbn. lia.
  - pose proof (V j e s (I j e (or_introl eq_refl)) U) as F. destruct (visit j e s) as [s1| | |]; try exact F. cbn in F.
    specialize (IH s1 ltac:(lia) ltac:(intros; eapply I; right; eassumption)). unfold fine in *.
    destruct (run_actions visit acts s1) as [s2| | |]; try exact IH. lia.
  - specialize (IH (defer s j e) U ltac:(intros; eapply I; right; eassumption)). unfold fine in *.
    destruct (run_actions visit acts (defer s j e)) as [s2| | |]; try exact IH. unfold pot in *. cbn [later scratch defer length] in *. rewrite app_length in IH. cbn [length] in IH. lia.
Qed.
Lemma filter_none : forall l k, filter is_defer (map (fun i => Visit i k) l) = [].
Proof. induction l; intros k; cbn; auto. Qed.
Lemma one_defer : forall v d l, prelude v d = Some l -> length (filter is_defer (l ++ deps v d)) <= 1.
Proof.
  intros v d l P. rewrite filter_app, app_length. unfold deps. rewrite filter_none. cbn [length]. rewrite Nat.add_0_r.
  unfold prelude in P. destruct (n_kind v) as [| |b|[[]|]|[[[]]|]| |[] a b c| |]; try discriminate; injection P as <-; cbn; rewrite ?filter_app, ?filter_none; cbn; lia.
Qed.

Lemma traverse_fine : forall fuel i d s, i < length g -> un s < fuel -> fine s 0 (traverse g fuel gen size i d s).
Proof.
  induction fuel as [|fuel IH]; intros i d s I U; [lia|]. cbn [traverse].
  destruct (nth_error g i) as [v|] eqn:HV; [|apply nth_error_None in HV; lia].
  destruct ((scratch s i =? stamp gen d)%N || _) eqn:SE; [cbn; lia|].
  assert (NS : ~ seen gen (scratch s) (i, d)) by (rewrite <- seen_test; rewrite SE; discriminate). clear SE.
  assert (UM : un (mark s i (stamp gen d)) < un s).
  { cbn [scratch mark]. pose proof (unseen_fset (length g) gen (scratch s) i (stamp gen d) I). pose proof (w_mark gen (scratch s) i d NS). lia. }
  assert (PM : pot (mark s i (stamp gen d)) < pot s) by (unfold pot; change (later (mark s i (stamp gen d))) with (later s); lia).
  assert (MONO : forall r, fine (mark s i (stamp gen d)) 1 r -> fine s 0 r).
  { intros r F. unfold fine in *. destruct r; auto. lia. }
  assert (K3 : n_kind v = Scatter true \/ n_kind v = CallInput \/ (live v /\ n_kind v <> CallInput)).
  { unfold live. destruct (n_kind v); try (right; right; split; discriminate); [|right; left; reflexivity]. destruct elide; [left; reflexivity|right; right; split; discriminate]. }
  destruct K3 as [K|[K|[LV NC]]].
  - rewrite K. apply MONO. cbn. lia.
  - rewrite K. destruct d as [|d].
    + apply MONO. cbn. unfold pot. cbn. lia.
    + destruct (n_dep v) as [|j rest] eqn:DV; [exfalso; exact (proj2 CL i v HV K DV)|].
      apply MONO. assert (J : j < length g) by (apply (proj1 CL (i, S d) (j, d)); left; eapply op_input; eauto).
      specialize (IH j d (mark s i (stamp gen (S d))) J ltac:(lia)). unfold fine in *. destruct (traverse _ _ _ _ _ _ _); auto. lia.
  - assert (EQ : forall (x : res),
      match n_kind v, n_dep v with
      | Scatter true, _ => Done (mark s i (stamp gen d))
      | CallInput, dd => match d, dd with O, _ => Done (push (mark s i (stamp gen d)) size v i) | S d', j :: _ => traverse g fuel gen size j d' (mark s i (stamp gen d)) | S _, [] => Bad end
      | _, _ => x end = x).
    { unfold live in LV. destruct (n_kind v) as [|[]| | | | | | |]; try reflexivity; contradiction. }
    rewrite EQ. clear EQ. destruct (prelude v d) as [l|] eqn:P; [|exact Logic.I].
    destruct (acts_spec g i v d l HV LV NC P) as [AV _].
    pose proof (fine_actions (traverse g fuel gen size) fuel IH (l ++ deps v d) (mark s i (stamp gen d)) ltac:(lia)
      ltac:(intros j e J; apply (proj1 CL (i, d) (j, e)); left; apply AV; exact J)) as F.
    pose proof (one_defer v d l P). destruct (run_actions _ _ _) as [s1| | |]; try exact F. cbn in F.
    destruct (n_consumed v); [exact Logic.I|]. destruct (d =? 0); apply MONO; cbn; unfold pot in *; cbn; lia.
Qed.

Lemma roots_fine : forall fuel l s, Forall (fun i => i < length g) l -> un s < fuel -> fine s 0 (traverse_roots g fuel gen size l s).
Proof.
  intros fuel l. induction l as [|i l IH]; intros s F U; cbn [traverse_roots]; [cbn; lia|]. inversion F; subst.
  pose proof (traverse_fine fuel i 0 s H1 U) as A. destruct (traverse g fuel gen size i 0 s) as [s1| | |]; try exact A. cbn in A.
  specialize (IH s1 H2 ltac:(lia)). unfold fine in *. destruct (traverse_roots _ _ _ _ _ _); auto. lia.
Qed.
Lemma later_fine : forall iter fuel k s b, pot s <= b -> b < iter + k -> un s < fuel -> Forall (fun q => fst q < length g) (later s) ->
  (forall i d s0 s1, traverse g fuel gen size i d s0 = Done s1 -> exists ls, later s1 = later s0 ++ ls /\ Forall (fun q => fst q < length g) ls) ->
  match traverse_later g iter fuel gen size k s with Done s' => un s' <= un s /\ later s' = [] | Raised _ => True | _ => False end.
Proof.
  induction iter as [|iter IH]; intros fuel k s b P B U F T; cbn [traverse_later]; destruct (nth_error (later s) k) as [[i d]|] eqn:E; try (cbn; split; [lia|reflexivity]).
  - pose proof (nth_error_Some (later s) k) as [L _]. rewrite E in L. specialize (L ltac:(discriminate)). unfold pot in P. lia.
  - assert (I : i < length g) by (apply nth_error_In in E; rewrite Forall_forall in F; exact (F _ E)).
    pose proof (traverse_fine fuel i d s I U) as A. destruct (traverse g fuel gen size i d s) as [s1| | |] eqn:TR; try exact A. unfold fine in A.
    destruct (T _ _ _ _ TR) as (ls & EL & FL).
    specialize (IH fuel (S k) s1 b ltac:(lia) ltac:(lia) ltac:(lia) ltac:(rewrite EL; apply Forall_app; auto) T).
    destruct (traverse_later _ _ _ _ _ _ _); auto. destruct IH as [? ?]; split; [lia|assumption].
Qed.
End G.
