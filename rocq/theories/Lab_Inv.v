(** Labels and callbacks: invariant and single updates *)
From Verif Require Import Base Lab_Model Lab_Spec.
Local Open Scope N_scope.

Definition dep_of (o : option var) : list nat := match o with Some v => x_deps v | None => [] end.
Definition deps (s : state) : list nat := flat_map dep_of (vars s).
Definition live (s : state) : nat := length (filter (fun o => match o with Some _ => true | None => false end) (vars s)).
Definition ext_of (s : state) (v : var) : extra := match x_extra v with Some e => extra_at s e | None => extra0 end.

Definition full (t : tag) : str := fold_right (fun p r => p ++ 47 :: r) (snd t) (fst t).
Definition tagged (x : option str) (t : option tag) : Prop :=
  match t with
  | None => x = None
  | Some t => x = Some (full t) /\ Forall name (fst t) /\ name (snd t)
  end.
Definition fitting (x : extra) (a : attr) : Prop := tagged (e_label x) (a_label a) /\ e_cb x = a_cb a.
Definition matches (s : state) (v : var) (a : attr) : Prop :=
  a_shape a = key_of v /\ fitting (ext_of s v) a.

Record Good (s : state) (ext : list nat) (att : nat -> option attr) (todo : list nat) : Prop := {
  g_att : forall i v, get s i = Some v -> exists a, att i = Some a /\ matches s v a;
  g_none : forall i, get s i = None -> att i = None;
  g_refs : forall i v, get s i = Some v -> x_refs v = N.of_nat (count i (ext ++ deps s));
  g_live : forall i, In i (ext ++ deps s) -> get s i <> None;
  g_nodup : NoDup todo;
  g_todo : forall i, In i todo <-> exists v, get s i = Some v /\ x_refs v = 0;
  g_extra : forall i v e, get s i = Some v -> x_extra v = Some e -> (e < length (extras s))%nat /\ ~ In e (unused s);
  g_inj : forall i j v w e, get s i = Some v -> get s j = Some w -> x_extra v = Some e -> x_extra w = Some e -> i = j;
  g_unused : NoDup (unused s) /\ forall e, In e (unused s) -> (e < length (extras s))%nat;
  g_lvn : forall k i, In (k, i) (lvn s) <-> exists a, att i = Some a /\ a_shape a = k /\ a_shared a = true;
  g_keys : NoDup (map fst (lvn s));
  g_mem : forall i a, att i = Some a -> a_shared a = true -> snd (fst (a_shape a)) <> Mem;
  g_leaf : forall i a, att i = Some a -> snd (fst (a_shape a)) <> Node -> snd (a_shape a) = [];
  g_rank : exists (rank : nat -> nat) M, forall i v, get s i = Some v ->
     (rank i <= M)%nat /\ forall d, In d (x_deps v) -> (rank d < rank i)%nat
}.

Lemma count_app i l1 l2 : count i (l1 ++ l2) = (count i l1 + count i l2)%nat.
Proof. apply count_occ_app. Qed.
Lemma count_cons i j l : count i (j :: l) = ((if Nat.eq_dec j i then 1 else 0) + count i l)%nat.
Proof. unfold count. cbn [count_occ]. destruct (Nat.eq_dec j i); reflexivity. Qed.
Lemma count_In i l : In i l <-> (0 < count i l)%nat.
Proof. unfold count. rewrite (count_occ_In Nat.eq_dec). lia. Qed.
Lemma count_drop i j l : In i l -> (count j (drop_one i l) + (if Nat.eq_dec i j then 1 else 0) = count j l)%nat.
Proof.
  induction l as [|k l IH]; intros H; [destruct H|]. cbn [drop_one]. destruct (Nat.eqb_spec k i) as [->|NE].
  - rewrite count_cons. lia.
  - destruct H as [->|H]; [congruence|]. rewrite !count_cons. specialize (IH H). lia.
Qed.

(** * Slots *)
Lemma get_lt s i v : get s i = Some v -> (i < length (vars s))%nat.
Proof.
  unfold get. destruct (nth_error (vars s) i) eqn:E; [|discriminate]. intros _. apply nth_error_Some. congruence.
Qed.
Lemma get_put s i v o j : get s i = Some v -> get (put s i o) j = if Nat.eqb j i then o else get s j.
Proof.
  intros G. apply get_lt in G. unfold get, put, set_vars. cbn [vars]. destruct (Nat.eqb_spec j i) as [->|NE].
  - rewrite nth_error_set_nth_eq by exact G. destruct o; reflexivity.
  - rewrite nth_error_set_nth_neq by auto. reflexivity.
Qed.
Lemma set_split {A} (l : list A) i x o : nth_error l i = Some x ->
  exists l1 l2, l = l1 ++ x :: l2 /\ length l1 = i /\ set_nth i o l = l1 ++ o :: l2.
Proof.
  revert i; induction l as [|y l IH]; intros [|i] H; cbn in *; try discriminate.
  - injection H as ->. exists [], l. auto.
  - destruct (IH _ H) as (l1 & l2 & -> & L & E). exists (y :: l1), l2. cbn. rewrite E. auto.
Qed.
Lemma deps_put s i v o j : get s i = Some v ->
  (count j (deps (put s i o)) + count j (x_deps v) = count j (deps s) + count j (dep_of o))%nat.
Proof.
  unfold get. destruct (nth_error (vars s) i) as [[u|]|] eqn:E; try discriminate. intros [= ->].
  destruct (set_split _ _ _ o E) as (l1 & l2 & EQ & _ & E2). unfold deps, put, set_vars. cbn [vars].
  rewrite E2, EQ. rewrite !flat_map_app. cbn [flat_map]. rewrite !count_app. cbn [dep_of]. lia.
Qed.
Lemma live_put s i v o : get s i = Some v ->
  (live (put s i o) + 1 = live s + match o with Some _ => 1 | None => 0 end)%nat.
Proof.
  unfold get. destruct (nth_error (vars s) i) as [[u|]|] eqn:E; try discriminate. intros [= ->].
  destruct (set_split _ _ _ o E) as (l1 & l2 & EQ & _ & EQ2). unfold live, put, set_vars. cbn [vars]. rewrite EQ2, EQ.
  rewrite !filter_app, !app_length. cbn [filter]. destruct o; cbn [length]; lia.
Qed.
Lemma live_le s : (live s <= length (vars s))%nat.
Proof. unfold live. induction (vars s) as [|o l IH]; cbn; [lia|]. destruct o; cbn; lia. Qed.
Lemma first_free_spec l : (first_free l <= length l)%nat /\
  match nth_error l (first_free l) with Some (Some _) => False | _ => True end.
Proof.
  induction l as [|[v|] l [IH1 IH2]]; cbn [first_free length nth_error]; auto; split; auto; lia.
Qed.

Definition alloc (s : state) (v : var) : state :=
  let i := first_free (vars s) in
  set_vars s (if Nat.ltb i (length (vars s)) then set_nth i (Some v) (vars s) else vars s ++ [Some v]).
Lemma alloc_spec s v : let i := first_free (vars s) in
  get s i = None /\ (forall j, get (alloc s v) j = if Nat.eqb j i then Some v else get s j) /\
  (forall j, count j (deps (alloc s v)) = count j (deps s) + count j (x_deps v))%nat.
Proof.
  cbn zeta. set (i := first_free (vars s)).
  destruct (first_free_spec (vars s)) as [A B]. fold i in A, B.
  assert (G : get s i = None).
  { unfold get. destruct (nth_error (vars s) i) as [[u|]|]; [destruct B|reflexivity|reflexivity]. }
  split; [exact G|]. unfold alloc. fold i. destruct (Nat.ltb_spec i (length (vars s))) as [L|L].
  - split.
    + intros j. unfold get, set_vars. cbn [vars]. destruct (Nat.eqb_spec j i) as [->|NE].
      * now rewrite nth_error_set_nth_eq by exact L.
      * now rewrite nth_error_set_nth_neq by auto.
    + intros j. unfold deps, set_vars. cbn [vars].
      destruct (nth_error (vars s) i) as [[u|]|] eqn:E; [destruct B| |].
      * destruct (set_split _ _ _ (Some v) E) as (l1 & l2 & EQ & _ & ->). rewrite EQ.
        rewrite !flat_map_app. cbn [flat_map]. rewrite !count_app. cbn [dep_of]. unfold count at 5. cbn. lia.
      * apply nth_error_None in E. lia.
  - assert (EQ : i = length (vars s)) by lia. split.
    + intros j. unfold get, set_vars. cbn [vars]. destruct (Nat.eqb_spec j i) as [->|NE].
      * rewrite nth_error_app2 by lia. now rewrite EQ, Nat.sub_diag.
      * destruct (Nat.ltb_spec j (length (vars s))).
        -- now rewrite nth_error_app1 by lia.
        -- rewrite (proj2 (nth_error_None (vars s) j)) by lia.
           rewrite (proj2 (nth_error_None (vars s ++ [Some v]) j)); [reflexivity|]. rewrite app_length. cbn. lia.
    + intros j. unfold deps, set_vars. cbn [vars]. rewrite flat_map_app, count_app. cbn [flat_map]. now rewrite app_nil_r.
Qed.

(** * Keys *)
Lemma deps_eqb_eq a b : deps_eqb a b = true <-> a = b.
Proof.
  revert b; induction a as [|x a IH]; intros [|y b]; cbn [deps_eqb]; try (split; congruence).
  rewrite andb_true_iff, Nat.eqb_eq, IH. split; [intros [-> ->]; reflexivity|intros [= -> ->]; auto].
Qed.
Lemma vkey_eqb_eq a b : vkey_eqb a b = true <-> a = b.
Proof.
  destruct a as [[k d] l], b as [[k' d'] l']. unfold vkey_eqb. rewrite !andb_true_iff, N.eqb_eq, deps_eqb_eq.
  split; [intros [[-> D] ->]|intros [= -> -> ->]]; [destruct d, d'; try discriminate D; reflexivity|].
  destruct d'; auto.
Qed.

(** * References *)
Section Update.
Variables (s : state) (ext : list nat) (att : nat -> option attr) (todo : list nat).
Hypothesis G : Good s ext att todo.

Lemma att_get i a : att i = Some a -> exists v, get s i = Some v /\ matches s v a.
Proof.
  intros H. destruct (get s i) as [v|] eqn:E.
  - destruct (g_att _ _ _ _ G _ _ E) as (b & B & M). exists v. split; [reflexivity|congruence].
  - rewrite (g_none _ _ _ _ G _ E) in H. discriminate.
Qed.

Lemma Good_refs i v n ext' todo' :
  get s i = Some v ->
  (forall j, j <> i -> count j ext' = count j ext) ->
  n = N.of_nat (count i (ext' ++ deps s)) ->
  NoDup todo' ->
  (forall j, j <> i -> (In j todo' <-> In j todo)) ->
  (In i todo' <-> n = 0) ->
  Good (put s i (Some (with_refs v n))) ext' att todo'.
Proof.
  intros E C EN ND T1 T2. destruct G as [A1 A2 A3 A4 A5 A6 A7 A8 A9 B1 B2 B3 B4 B5].
  assert (GP : forall j, get (put s i (Some (with_refs v n))) j = if Nat.eqb j i then Some (with_refs v n) else get s j)
    by (intros j; now rewrite (get_put _ _ _ _ _ E)).
  assert (D : forall j, count j (deps (put s i (Some (with_refs v n)))) = count j (deps s)).
  { intros j. pose proof (deps_put s i v (Some (with_refs v n)) j E) as H. cbn [dep_of with_refs x_deps] in H. lia. }
  assert (IN : forall (P : nat -> var -> Prop), (forall j w, get s j = Some w -> P j w) ->
     (P i v -> P i (with_refs v n)) -> forall j w, get (put s i (Some (with_refs v n))) j = Some w -> P j w).
  { intros P H1 H2 j w. rewrite GP. destruct (Nat.eqb_spec j i) as [->|NE]; [intros [= <-]; auto|auto]. }
  constructor; auto.
  - apply (IN (fun j w => exists a, att j = Some a /\ matches (put s i (Some (with_refs v n))) w a)).
    + intros j w Gj. destruct (A1 _ _ Gj) as (a & X & M). exists a. split; [exact X|exact M].
    + intros (a & X & M). exists a. split; [exact X|exact M].
  - intros j. rewrite GP. destruct (Nat.eqb j i); [discriminate|auto].
  - intros j w. rewrite GP. rewrite count_app, D. destruct (Nat.eqb_spec j i) as [->|NE].
    + intros [= <-]. rewrite count_app in EN. exact EN.
    + intros Gj. rewrite (A3 _ _ Gj), !count_app, C by exact NE. reflexivity.
  - intros j. rewrite count_In, count_app, D, GP. destruct (Nat.eqb_spec j i) as [->|NE]; [discriminate|].
    intros H. apply A4. rewrite count_In, count_app. rewrite <- C by exact NE. exact H.
  - intros j. destruct (Nat.eq_dec j i) as [->|NE].
    + rewrite T2. split.
      * intros H. exists (with_refs v n). rewrite GP, Nat.eqb_refl. auto.
      * intros (w & W & Z). rewrite GP, Nat.eqb_refl in W. injection W as <-. exact Z.
    + rewrite T1, A6 by exact NE. rewrite GP. destruct (Nat.eqb_spec j i) as [->|_]; [congruence|reflexivity].
  - intros j w e. rewrite GP. destruct (Nat.eqb_spec j i) as [->|NE]; [intros [= <-]; exact (A7 i v e E)|exact (A7 j w e)].
  - intros j k w u e. rewrite !GP. intros H1 H2 H3 H4.
    assert (X : exists w', get s j = Some w' /\ x_extra w' = Some e).
    { destruct (Nat.eqb_spec j i) as [->|_]; [exists v; injection H1 as <-; auto|exists w; auto]. }
    assert (Y : exists w', get s k = Some w' /\ x_extra w' = Some e).
    { destruct (Nat.eqb_spec k i) as [->|_]; [exists v; injection H2 as <-; auto|exists u; auto]. }
    destruct X as (w1 & ? & ?), Y as (w2 & ? & ?). eapply A8; eauto.
  - destruct B5 as (rank & M & R). exists rank, M.
    apply (IN (fun j w => (rank j <= M)%nat /\ forall d, In d (x_deps w) -> (rank d < rank j)%nat)); auto.
Qed.

(** * Records *)
Definition record (i : nat) (v : var) (x : extra) : state :=
  let '(t, e) := var_extra s i v in write_extra t e x.

Lemma nth_set_eq {A} e (x : A) l d : (e < length l)%nat -> nth e (set_nth e x l) d = x.
Proof. intros L. apply nth_error_nth. now apply nth_error_set_nth_eq. Qed.
Lemma nth_set_neq {A} e f (x : A) l d : f <> e -> nth f (set_nth e x l) d = nth f l d.
Proof.
  intros NE. destruct (nth_error l f) eqn:E.
  - rewrite (nth_error_nth _ _ d E). apply nth_error_nth. rewrite nth_error_set_nth_neq by auto. exact E.
  - rewrite !nth_overflow; [reflexivity| |]; [now apply nth_error_None|rewrite set_nth_length; now apply nth_error_None].
Qed.

Lemma record_spec i v x : get s i = Some v ->
  exists e u, unused (record i v x) = u /\
    (e < length (extras (record i v x)))%nat /\ ~ In e u /\ NoDup u /\
    (forall f, In f u -> In f (unused s)) /\
    (x_extra v = Some e \/ x_extra v = None /\ forall j w, get s j = Some w -> x_extra w <> Some e) /\
    (length (extras s) <= length (extras (record i v x)))%nat /\
    extra_at (record i v x) e = x /\
    (forall f, f <> e -> (f < length (extras s))%nat -> extra_at (record i v x) f = extra_at s f) /\
    (forall j, get (record i v x) j = if Nat.eqb j i then Some (with_extra v (Some e)) else get s j) /\
    (forall j, count j (deps (record i v x)) = count j (deps s)) /\
    lvn (record i v x) = lvn s /\ prefixes (record i v x) = prefixes s /\ log (record i v x) = log s.
Proof.
  intros E. unfold record, var_extra. destruct (x_extra v) as [e|] eqn:X.
  - destruct (g_extra _ _ _ _ G _ _ _ E X) as [L U]. exists e, (unused s).
    unfold write_extra, set_extras, extra_at, get, deps. cbn [vars unused extras lvn prefixes log].
    rewrite set_nth_length. split; [reflexivity|]. split; [exact L|]. split; [exact U|].
    split; [apply (g_unused _ _ _ _ G)|]. split; [auto|]. split; [auto|]. split; [lia|].
    split; [now apply nth_set_eq|]. split; [intros; now apply nth_set_neq|]. split; [|auto].
    intros j. destruct (Nat.eqb_spec j i) as [->|_]; [|reflexivity].
    fold (get s i). rewrite E. f_equal. destruct v; cbn in *; now subst.
  - destruct (unused s) as [|e u] eqn:U.
    + set (e := length (extras s)). exists e, [].
      set (s1 := set_extras s (extras s ++ [extra0]) []).
      assert (E1 : get s1 i = Some v) by exact E.
      unfold write_extra, set_extras at 1 2 3 4 5, extra_at, put, set_vars. cbn [vars unused extras lvn prefixes log].
      change (extras s1) with (extras s ++ [extra0]). rewrite set_nth_length, app_length. cbn [length].
      split; [reflexivity|]. split; [lia|]. split; [intros []|]. split; [constructor|]. split; [auto|].
      split; [right; split; [reflexivity|]; intros j w Gj Y; apply (g_extra _ _ _ _ G _ _ _ Gj) in Y; lia|].
      split; [lia|]. split; [apply nth_set_eq; rewrite app_length; cbn; lia|].
      split; [intros f NE L; rewrite nth_set_neq by exact NE; now rewrite app_nth1 by lia|].
      split; [intros j; exact (get_put s1 i v (Some (with_extra v (Some e))) j E1)|].
      split; [|auto]. intros j. pose proof (deps_put s1 i v (Some (with_extra v (Some e))) j E1) as H.
      cbn [dep_of with_extra x_deps] in H. change (deps s1) with (deps s) in H.
      unfold deps, put, set_vars, set_extras in *. cbn [vars] in *. lia.
    + exists e, u. set (s1 := set_extras s (set_nth e extra0 (extras s)) u).
      destruct (g_unused _ _ _ _ G) as [N1 N2]. rewrite U in N1, N2. inversion N1; subst.
      assert (L : (e < length (extras s))%nat) by (apply N2; now left).
      assert (E1 : get s1 i = Some v) by exact E.
      unfold write_extra, set_extras at 1 2 3 4 5, extra_at, put, set_vars. cbn [vars unused extras lvn prefixes log].
      change (extras s1) with (set_nth e extra0 (extras s)). rewrite !set_nth_length.
      split; [reflexivity|]. split; [lia|]. split; [assumption|]. split; [assumption|]. split; [intros; now right|].
      split; [right; split; [reflexivity|]; intros j w Gj Y; apply (g_extra _ _ _ _ G _ _ _ Gj) in Y; rewrite U in Y; apply (proj2 Y); now left|].
      split; [lia|]. split; [apply nth_set_eq; rewrite set_nth_length; lia|].
      split; [intros f NE Lf; now rewrite !nth_set_neq by exact NE|].
      split; [intros j; exact (get_put s1 i v (Some (with_extra v (Some e))) j E1)|].
      split; [|auto]. intros j. pose proof (deps_put s1 i v (Some (with_extra v (Some e))) j E1) as H.
      cbn [dep_of with_extra x_deps] in H. change (deps s1) with (deps s) in H.
      unfold deps, put, set_vars, set_extras in *. cbn [vars] in *. lia.
Qed.

Lemma Good_record i v x a a' :
  get s i = Some v -> att i = Some a -> a_shape a' = a_shape a -> a_shared a' = a_shared a -> fitting x a' ->
  Good (record i v x) ext (fset att i (Some a')) todo.
Proof.
  intros E EA S1 S2 F. destruct (record_spec i v x E) as (e & u & EU & L & NU & ND & SUB & OWN & LE & AT & OTH & GP & D & LV & _).
  destruct G as [A1 A2 A3 A4 A5 A6 A7 A8 A9 B1 B2 B3 B4 B5].
  set (s' := record i v x) in *.
  assert (OW : forall j w f, j <> i -> get s j = Some w -> x_extra w = Some f -> f <> e).
  { intros j w f NE Gj X ->. destruct OWN as [O1|[_ O2]]; [|exact (O2 _ _ Gj X)].
    exact (NE (A8 _ _ _ _ _ Gj E X O1)). }
  constructor; auto.
  - intros j w. rewrite GP. unfold fset. destruct (Nat.eqb_spec j i) as [->|NE].
    + intros [= <-]. exists a'. split; [reflexivity|]. split.
      * destruct (A1 _ _ E) as (b & Bb & [M _]). rewrite EA in Bb. injection Bb as <-. rewrite S1. exact M.
      * unfold ext_of. cbn [with_extra x_extra]. now rewrite AT.
    + intros Gj. destruct (A1 _ _ Gj) as (b & Bb & [M1 M2]). exists b. split; [exact Bb|]. split; [exact M1|].
      unfold ext_of in *. destruct (x_extra w) as [f|] eqn:X; [|exact M2].
      rewrite OTH; [exact M2|exact (OW _ _ _ NE Gj X)|apply (A7 _ _ _ Gj X)].
  - intros j. rewrite GP. unfold fset. destruct (Nat.eqb j i); [discriminate|auto].
  - intros j w. rewrite GP, count_app, D, <- count_app. destruct (Nat.eqb_spec j i) as [->|NE]; [intros [= <-]|]; auto.
    cbn [with_extra x_refs]. auto.
  - intros j. rewrite count_In, count_app, D, <- count_app, <- count_In, GP. destruct (Nat.eqb j i); [discriminate|auto].
  - intros j. rewrite A6. rewrite GP. destruct (Nat.eqb_spec j i) as [->|NE]; [|reflexivity].
    split; intros (w & W & Z); eexists; (split; [|]); try reflexivity; try eassumption.
    + rewrite E in W. injection W as <-. exact Z.
    + injection W as <-. exact Z.
  - intros j w f. rewrite GP, EU. destruct (Nat.eqb_spec j i) as [->|NE].
    + intros [= <-]. cbn [with_extra x_extra]. intros [= <-]. auto.
    + intros Gj X. destruct (A7 _ _ _ Gj X) as [Y1 Y2]. split; [lia|]. intros H. exact (Y2 (SUB _ H)).
  - intros j k w w' f. rewrite !GP. destruct (Nat.eqb_spec j i) as [->|N1], (Nat.eqb_spec k i) as [->|N2]; auto.
    + intros [= <-] Gk [= <-] X. destruct (OW _ _ _ N2 Gk X eq_refl).
    + intros Gj [= <-] X [= <-]. destruct (OW _ _ _ N1 Gj X eq_refl).
    + apply A8.
  - rewrite EU. split; [exact ND|]. intros f H. destruct A9 as [_ A9]. specialize (A9 _ (SUB _ H)). lia.
  - intros k j. rewrite LV, B1. unfold fset. destruct (Nat.eqb_spec j i) as [->|NE]; [|reflexivity].
    split; intros (b & Bb & X & Y).
    + exists a'. rewrite EA in Bb. injection Bb as <-. rewrite S1, S2. auto.
    + injection Bb as <-. exists a. rewrite <- S1, <- S2. auto.
  - now rewrite LV.
  - intros j b. unfold fset. destruct (Nat.eqb_spec j i) as [->|NE]; [|apply B3].
    intros [= <-]. rewrite S1, S2. now apply (B3 i).
  - intros j b. unfold fset. destruct (Nat.eqb_spec j i) as [->|NE]; [|apply B4].
    intros [= <-]. rewrite S1. now apply (B4 i).
  - destruct B5 as (rank & M & R). exists rank, M. intros j w. rewrite GP. destruct (Nat.eqb_spec j i) as [->|NE]; [|apply R].
    intros [= <-]. cbn [with_extra x_deps]. now apply R.
Qed.

Lemma var_extra_old i v : get s i = Some v -> extra_at (fst (var_extra s i v)) (snd (var_extra s i v)) = ext_of s v.
Proof.
  intros E. unfold var_extra, ext_of. destruct (x_extra v) as [e|] eqn:X; [reflexivity|].
  destruct (unused s) as [|e u] eqn:U; cbn [fst snd]; unfold extra_at, put, set_vars, set_extras; cbn [extras].
  - rewrite app_nth2 by lia. now rewrite Nat.sub_diag.
  - apply nth_set_eq. apply (g_unused _ _ _ _ G). rewrite U. now left.
Qed.
Lemma var_extra_frame i v : prefixes (fst (var_extra s i v)) = prefixes s /\ log (fst (var_extra s i v)) = log s.
Proof. unfold var_extra. destruct (x_extra v); [auto|]. destruct (unused s); auto. Qed.
End Update.
