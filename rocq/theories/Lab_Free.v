(** Labels and callbacks: creating and releasing variables *)
From Verif Require Import Base Lab_Model Lab_Spec Lab_Inv.
Local Open Scope N_scope.

Lemma Good_ext s e1 e2 att todo : (forall i, count i e1 = count i e2) -> Good s e1 att todo -> Good s e2 att todo.
Proof.
  intros C [A1 A2 A3 A4 A5 A6 A7 A8 A9 B1 B2 B3 B4 B5]. constructor; auto.
  - intros i v E. rewrite (A3 _ _ E), !count_app, C. reflexivity.
  - intros i. rewrite count_In, count_app, <- C, <- count_app, <- count_In. apply A4.
Qed.
Lemma Good_todo s ext att t1 t2 : Permutation t1 t2 -> Good s ext att t1 -> Good s ext att t2.
Proof.
  intros P [A1 A2 A3 A4 A5 A6 A7 A8 A9 B1 B2 B3 B4 B5]. constructor; auto.
  - now apply (Permutation_NoDup P).
  - intros i. rewrite <- A6. split; apply Permutation_in; [now apply Permutation_sym|exact P].
Qed.
Lemma Good_att s ext a1 a2 todo : (forall i, a1 i = a2 i) -> Good s ext a1 todo -> Good s ext a2 todo.
Proof.
  intros Q [A1 A2 A3 A4 A5 A6 A7 A8 A9 B1 B2 B3 B4 B5]. constructor; auto.
  - intros i v E. rewrite <- Q. auto.
  - intros i E. rewrite <- Q. auto.
  - intros k i. rewrite B1, Q. reflexivity.
  - intros i a. rewrite <- Q. apply B3.
  - intros i a. rewrite <- Q. apply B4.
Qed.
Lemma Good_frame s s' ext att todo : vars s' = vars s -> lvn s' = lvn s -> extras s' = extras s -> unused s' = unused s ->
  Good s ext att todo -> Good s' ext att todo.
Proof.
  destruct s, s'. cbn. intros -> -> -> -> [A1 A2 A3 A4 A5 A6 A7 A8 A9 B1 B2 B3 B4 B5]. constructor; auto.
Qed.

Lemma In_deps s j : In j (deps s) <-> exists i v, get s i = Some v /\ In j (x_deps v).
Proof.
  unfold deps. rewrite in_flat_map. split.
  - intros ([v|] & H1 & H2); [|destruct H2]. apply In_nth_error in H1 as [i H1]. exists i, v.
    unfold get. rewrite H1. auto.
  - intros (i & v & H1 & H2). exists (Some v). split; [|exact H2]. unfold get in H1.
    destruct (nth_error (vars s) i) as [[w|]|] eqn:E; try discriminate. injection H1 as ->. now apply nth_error_In in E.
Qed.

(** * References *)
Lemma pos s ext att i v : Good s ext att [] -> get s i = Some v -> x_refs v <> 0.
Proof. intros G E Z. apply (proj2 (g_todo _ _ _ _ G i)). eauto. Qed.

Lemma Good_inc s ext att i v : Good s ext att [] -> get s i = Some v ->
  Good (inc s i) (i :: ext) att [] /\ prefixes (inc s i) = prefixes s /\ log (inc s i) = log s /\
  (forall j, get (inc s i) j = if Nat.eqb j i then Some (with_refs v (x_refs v + 1)) else get s j).
Proof.
  intros G E. unfold inc. rewrite E. split; [|split; [reflexivity|]; split; [reflexivity|intros j; now apply get_put with (v := v)]].
  apply (Good_refs _ _ _ _ G); auto.
  - intros j NE. rewrite count_cons. destruct (Nat.eq_dec i j); [congruence|reflexivity].
  - rewrite (g_refs _ _ _ _ G _ _ E), !count_app, count_cons. destruct (Nat.eq_dec i i); [lia|congruence].
  - apply NoDup_nil.
  - reflexivity.
  - split; [intros []|lia].
Qed.

Lemma Good_incs ds : forall s ext att, Good s ext att [] -> (forall j, In j ds -> get s j <> None) ->
  Good (fold_left inc ds s) (ds ++ ext) att [] /\ prefixes (fold_left inc ds s) = prefixes s /\
  log (fold_left inc ds s) = log s /\ lvn (fold_left inc ds s) = lvn s /\
  (forall j, get (fold_left inc ds s) j = None <-> get s j = None).
Proof.
  induction ds as [|d ds IH]; intros s ext att G L; cbn [fold_left app].
  - split; [exact G|]. repeat split; auto.
  - destruct (get s d) as [v|] eqn:E; [|destruct (L d (or_introl eq_refl) E)].
    destruct (Good_inc _ _ _ _ _ G E) as (G1 & P1 & L1 & E1).
    assert (N1 : forall j, get (inc s d) j = None <-> get s j = None).
    { intros j. rewrite E1. destruct (Nat.eqb_spec j d) as [->|_]; [rewrite E; split; discriminate|reflexivity]. }
    destruct (IH (inc s d) (d :: ext) att G1) as (G2 & P2 & L2 & V2 & N2).
    { intros j H. rewrite N1. apply L. now right. }
    split; [|split; [congruence|split; [congruence|split]]].
    + revert G2. apply Good_ext. intros i. cbn [app]. rewrite count_app, !count_cons, count_app. lia.
    + rewrite V2. unfold inc. rewrite E. reflexivity.
    + intros j. rewrite N2. apply N1.
Qed.

Definition plain (k : N) (d : kind) (ds : list nat) : var :=
  {| x_key := k; x_kind := d; x_deps := ds; x_refs := 1; x_extra := None |}.
Definition enter (b : bool) (s : state) (k : vkey) (i : nat) : state := if b then set_lvn s ((k, i) :: lvn s) else s.

Lemma Good_alloc s ext ds att k d b :
  Good s (ds ++ ext) att [] -> (d <> Node -> ds = []) ->
  (b = true -> d <> Mem /\ forall j a, att j = Some a -> a_shape a = (k, d, ds) -> a_shared a = false) ->
  let i := first_free (vars s) in
  let s' := enter b (alloc s (plain k d ds)) (k, d, ds) i in
  att i = None /\ get s' i = Some (plain k d ds) /\
  Good s' (i :: ext) (fset att i (Some {| a_shape := (k, d, ds); a_shared := b; a_label := None; a_cb := None |})) [].
Proof.
  intros G LF SH i s'. destruct (alloc_spec s (plain k d ds)) as (GN & GP & D). fold i in GN, GP.
  assert (AN : att i = None) by exact (g_none _ _ _ _ G _ GN).
  assert (GP' : forall j, get s' j = if Nat.eqb j i then Some (plain k d ds) else get s j).
  { intros j. rewrite <- GP. unfold s', enter. destruct b; reflexivity. }
  assert (D' : forall j, count j (deps s') = (count j (deps s) + count j ds)%nat).
  { intros j. specialize (D j). cbn [plain x_deps] in D. rewrite <- D. unfold s', enter. destruct b; reflexivity. }
  assert (EX : extras s' = extras s /\ unused s' = unused s) by (unfold s', enter; destruct b; auto).
  assert (LV : lvn s' = if b then ((k, d, ds), i) :: lvn s else lvn s) by (unfold s', enter; destruct b; auto).
  destruct EX as [EX1 EX2].
  split; [exact AN|]. split; [rewrite GP', Nat.eqb_refl; reflexivity|].
  destruct G as [A1 A2 A3 A4 A5 A6 A7 A8 A9 B1 B2 B3 B4 B5].
  assert (CI : count i (ds ++ ext ++ deps s) = 0%nat).
  { destruct (count i (ds ++ ext ++ deps s)) eqn:C; [reflexivity|].
    assert (H : In i ((ds ++ ext) ++ deps s)) by (rewrite <- app_assoc, count_In; lia). destruct (A4 _ H GN). }
  rewrite !count_app in CI.
  assert (MT : forall w a, matches s w a -> matches s' w a).
  { intros w a [M1 M2]. split; [exact M1|]. unfold ext_of, extra_at in *. rewrite EX1. exact M2. }
  constructor.
  - intros j w. rewrite GP'. unfold fset. destruct (Nat.eqb_spec j i) as [->|NE].
    + intros [= <-]. eexists. split; [reflexivity|]. split; [reflexivity|]. split; reflexivity.
    + intros Gj. destruct (A1 _ _ Gj) as (a & X & M). eauto.
  - intros j. rewrite GP'. unfold fset. destruct (Nat.eqb j i); [discriminate|auto].
  - intros j w. rewrite GP', count_app, count_cons, D'. destruct (Nat.eqb_spec j i) as [->|NE].
    + intros [= <-]. cbn [plain x_refs]. destruct (Nat.eq_dec i i); [lia|congruence].
    + intros Gj. rewrite (A3 _ _ Gj), !count_app. destruct (Nat.eq_dec i j); [congruence|lia].
  - intros j. rewrite count_In, count_app, count_cons, D', GP'. destruct (Nat.eqb_spec j i) as [->|NE]; [discriminate|].
    intros H. apply A4. rewrite count_In, !count_app. destruct (Nat.eq_dec i j); [congruence|lia].
  - constructor.
  - intros j. split; [intros []|]. intros (w & W & Z). rewrite GP' in W. destruct (Nat.eqb_spec j i) as [->|NE].
    + injection W as <-. discriminate Z.
    + apply A6. eauto.
  - intros j w e. rewrite GP', EX1, EX2. destruct (Nat.eqb_spec j i) as [->|NE]; [intros [= <-] X; discriminate X|apply A7].
  - intros j l w u e. rewrite !GP'. destruct (Nat.eqb_spec j i) as [->|N1], (Nat.eqb_spec l i) as [->|N2]; auto.
    + intros [= <-] _ X; discriminate X.
    + intros _ [= <-] _ X; discriminate X.
    + apply A8.
  - rewrite EX1, EX2. exact A9.
  - intros q j. rewrite LV. unfold fset. destruct b.
    + cbn [In]. rewrite B1. destruct (Nat.eqb_spec j i) as [->|NE].
      * rewrite AN. split.
        -- intros [[= <-]|(a & X & _)]; [|discriminate X]. eexists. split; [reflexivity|]. auto.
        -- intros (a & [= <-] & Y & _). left. rewrite <- Y. reflexivity.
      * split; [intros [[= <- <-]|H]; [congruence|exact H]|auto].
    + rewrite B1. destruct (Nat.eqb_spec j i) as [->|NE]; [|reflexivity]. rewrite AN.
      split; [intros (a & X & _); discriminate X|intros (a & [= <-] & _ & Y); discriminate Y].
  - rewrite LV. destruct b; [|exact B2]. cbn [map fst]. constructor; [|exact B2].
    intros H. apply in_map_iff in H as ([q j] & Q & H). cbn [fst] in Q. subst q.
    apply B1 in H as (a & X & Y & Z). destruct (SH eq_refl) as [_ S1]. specialize (S1 _ _ X Y). congruence.
  - intros j a. unfold fset. destruct (Nat.eqb j i); [|apply B3]. intros [= <-]. cbn [a_shape a_shared fst snd].
    intros ->. apply (proj1 (SH eq_refl)).
  - intros j a. unfold fset. destruct (Nat.eqb j i); [|apply B4]. intros [= <-]. cbn [a_shape fst snd]. exact LF.
  - destruct B5 as (rank & M & R).
    set (top := S (fold_right (fun x m => Nat.max (rank x) m) 0%nat ds)).
    assert (TOP : forall x, In x ds -> (rank x < top)%nat).
    { unfold top. clear. induction ds as [|y l IH]; intros x H; [destruct H|].
      cbn [fold_right]. destruct H as [->|H]; [lia|]. specialize (IH _ H). lia. }
    exists (fun j => if Nat.eqb j i then top else rank j), (Nat.max M top).
    assert (NI : forall j w, get s j = Some w -> ~ In i (x_deps w)).
    { intros j w Gj H. apply (A4 i); [|exact GN]. apply in_or_app. right. apply In_deps. eauto. }
    intros j w. rewrite GP'. destruct (Nat.eqb_spec j i) as [->|NE].
    + intros [= <-]. cbn [plain x_deps]. split; [lia|]. intros x H. destruct (Nat.eqb_spec x i) as [->|_].
      * assert (count i ds > 0)%nat by now apply count_In. lia.
      * now apply TOP.
    + intros Gj. destruct (R _ _ Gj) as [R1 R2]. split; [lia|]. intros x H. destruct (Nat.eqb_spec x i) as [->|_]; [destruct (NI _ _ Gj H)|auto].
Qed.

(** * Release *)
Lemma drop_view s i v : let s' := drop s i v in
  vars s' = set_nth i None (vars s) /\ prefixes s' = prefixes s /\ extras s' = extras s /\
  unused s' = match x_extra v with Some e => e :: unused s | None => unused s end /\
  log s' = log s ++ match e_cb (ext_of s v) with Some d => [(i, d)] | None => [] end /\
  lvn s' = match x_kind v with Mem => lvn s | _ => lvn (lvn_drop s i v) end.
Proof.
  cbn zeta. unfold drop, ext_of, put, set_vars, set_extras, set_log, lvn_drop, set_lvn, extra_at.
  destruct (x_kind v), (x_extra v) as [e|]; cbn [vars prefixes extras unused log lvn extra0 e_cb];
    try (destruct (e_cb (nth e (extras s) extra0))); cbn [vars prefixes extras unused log lvn];
    rewrite ?app_nil_r; auto 10.
Qed.

Lemma filter_keys {A B} (f : A * B -> bool) l : NoDup (map fst l) -> NoDup (map fst (filter f l)).
Proof.
  induction l as [|x l IH]; cbn [map filter]; intros H; [exact H|]. inversion H; subst.
  destruct (f x); [|auto]. cbn [map]. constructor; [|auto]. intros I1. apply H2.
  apply in_map_iff in I1 as (y & Y & I1). apply filter_In in I1 as [I1 _]. rewrite <- Y. now apply in_map.
Qed.

Lemma Good_drop s ext att i v w : Good s ext att (i :: w) -> get s i = Some v ->
  let s' := drop s i v in
  Good s' (x_deps v ++ ext) (fset att i None) w /\ (live s' + 1 = live s)%nat.
Proof.
  intros G E s'. destruct (drop_view s i v) as (V & _ & X & U & _ & LV). fold s' in V, X, U, LV.
  assert (SV : forall j, get s' j = get (put s i None) j) by (intros j; unfold get, put, set_vars; cbn [vars]; now rewrite V).
  assert (GP : forall j, get s' j = if Nat.eqb j i then None else get s j) by (intros j; rewrite SV; now apply get_put with (v := v)).
  assert (D : forall j, (count j (deps s') + count j (x_deps v) = count j (deps s))%nat).
  { intros j. pose proof (deps_put s i v None j E) as H. cbn [dep_of] in H. change (count j []) with 0%nat in H.
    unfold deps, put, set_vars in *. cbn [vars] in H. rewrite V. lia. }
  split; cycle 1.
  { pose proof (live_put s i v None E) as H. unfold live, put, set_vars in *. cbn [vars] in H. rewrite V. lia. }
  destruct G as [A1 A2 A3 A4 A5 A6 A7 A8 A9 B1 B2 B3 B4 B5].
  destruct (A1 _ _ E) as (a & EA & [M1 M2]).
  assert (R0 : x_refs v = 0).
  { destruct (proj1 (A6 i) (or_introl eq_refl)) as (v' & E' & Z). congruence. }
  assert (C0 : count i (ext ++ deps s) = 0%nat) by (rewrite (A3 _ _ E) in R0; lia).
  inversion A5; subst.
  constructor.
  - intros j u. rewrite GP. unfold fset. destruct (Nat.eqb_spec j i) as [->|NE]; [discriminate|].
    intros Gj. destruct (A1 _ _ Gj) as (b & Bb & [N1 N2]). exists b. split; [exact Bb|]. split; [exact N1|].
    unfold ext_of, extra_at in *. rewrite X. exact N2.
  - intros j. rewrite GP. unfold fset. destruct (Nat.eqb j i); auto.
  - intros j u. rewrite GP. destruct (Nat.eqb_spec j i) as [->|NE]; [discriminate|]. intros Gj.
    rewrite (A3 _ _ Gj), !count_app. specialize (D j). lia.
  - intros j. rewrite count_In, !count_app, GP. specialize (D j). intros H. destruct (Nat.eqb_spec j i) as [->|NE].
    + rewrite count_app in C0. lia.
    + apply A4. rewrite count_In, count_app. lia.
  - assumption.
  - intros j. rewrite GP. destruct (Nat.eqb_spec j i) as [->|NE].
    + split; [intros H; contradiction|intros (u & Z & _); discriminate Z].
    + rewrite <- A6. cbn [In]. split; [auto|intros [->|H]; [congruence|exact H]].
  - intros j u e. rewrite GP, X, U. destruct (Nat.eqb_spec j i) as [->|NE]; [discriminate|]. intros Gj Y.
    destruct (A7 _ _ _ Gj Y) as [L1 L2]. split; [exact L1|]. destruct (x_extra v) as [f|] eqn:F; [|exact L2].
    intros [->|H]; [|exact (L2 H)]. exact (NE (A8 _ _ _ _ _ Gj E Y F)).
  - intros j k u u' e. rewrite !GP. destruct (Nat.eqb j i), (Nat.eqb k i); try discriminate. apply A8.
  - rewrite U, X. destruct (x_extra v) as [e|] eqn:F; [|exact A9]. destruct (A7 _ _ _ E F) as [L1 L2], A9 as [A9 A9'].
    split; [now constructor|]. intros f [<-|H]; auto.
  - assert (KI : forall k j, In (k, j) (lvn s') <-> In (k, j) (lvn s) /\ j <> i).
    { intros k j. rewrite LV. assert (SHP : In (k, i) (lvn s) -> k = key_of v).
      { intros H. apply B1 in H as (b & Bb & Y & Z). congruence. }
      assert (DR : In (k, j) (lvn (lvn_drop s i v)) <-> In (k, j) (lvn s) /\ j <> i).
      { unfold lvn_drop, set_lvn. cbn [lvn]. rewrite filter_In. cbn [fst snd].
        rewrite negb_true_iff, andb_false_iff. split; intros [Y Z]; (split; [exact Y|]).
        - intros ->. rewrite Nat.eqb_refl in Z. destruct Z as [Z|Z]; [|discriminate].
          rewrite (SHP Y), (proj2 (vkey_eqb_eq _ _) eq_refl) in Z. discriminate.
        - right. now apply Nat.eqb_neq. }
      destruct (x_kind v) eqn:KD; [exact DR|exact DR|].
      split; [|intros [Y _]; exact Y]. intros H. split; [exact H|]. intros ->.
      apply B1 in H as (b & Bb & Y & Z). assert (b = a) by congruence. subst b.
      apply (B3 _ _ EA Z). rewrite M1. exact KD. }
    intros k j. rewrite KI, B1. unfold fset. destruct (Nat.eqb_spec j i) as [->|NE].
    + split; [intros [_ Y]; congruence|intros (b & Bb & _); discriminate Bb].
    + split; [intros [Y _]; exact Y|auto].
  - rewrite LV. destruct (x_kind v); [|  |exact B2]; unfold lvn_drop, set_lvn; cbn [lvn]; now apply filter_keys.
  - intros j b. unfold fset. destruct (Nat.eqb j i); [discriminate|apply B3].
  - intros j b. unfold fset. destruct (Nat.eqb j i); [discriminate|apply B4].
  - destruct B5 as (rank & M & R). exists rank, M. intros j u. rewrite GP. destruct (Nat.eqb j i); [discriminate|apply R].
Qed.

Lemma dec_all_ok ds : forall s ext att todo, Good s (ds ++ ext) att todo ->
  exists s' zs, dec_all s ds = Some (s', zs) /\ Good s' ext att (zs ++ todo) /\
    prefixes s' = prefixes s /\ log s' = log s /\ live s' = live s.
Proof.
  induction ds as [|d ds IH]; intros s ext att todo G; cbn [dec_all].
  - exists s, []. auto.
  - destruct (get s d) as [v|] eqn:E; [|destruct (g_live _ _ _ _ G d (or_introl eq_refl) E)].
    pose proof (g_refs _ _ _ _ G _ _ E) as R. cbn [app] in R. rewrite count_cons in R.
    destruct (Nat.eq_dec d d); [|congruence].
    destruct (N.eqb_spec (x_refs v) 0) as [Z|NZ]; [lia|].
    set (s1 := put s d (Some (with_refs v (x_refs v - 1)))).
    set (todo1 := if x_refs v =? 1 then d :: todo else todo).
    assert (ND : ~ In d todo).
    { intros H. apply (g_todo _ _ _ _ G) in H as (v' & E' & Z). congruence. }
    assert (G1 : Good s1 (ds ++ ext) att todo1).
    { apply (Good_refs _ _ _ _ G); auto.
      - intros j NE. cbn [app]. rewrite count_cons. destruct (Nat.eq_dec d j); [congruence|reflexivity].
      - rewrite R. lia.
      - unfold todo1. destruct (x_refs v =? 1); [constructor; [exact ND|]|]; apply (g_nodup _ _ _ _ G).
      - intros j NE. unfold todo1. destruct (x_refs v =? 1); [|reflexivity]. cbn [In]. split; [intros [->|H]; [congruence|exact H]|auto].
      - unfold todo1. destruct (N.eqb_spec (x_refs v) 1) as [O|O]; [split; [lia|intros _; now left]|].
        split; [intros H; contradiction|lia]. }
    destruct (IH s1 ext att todo1 G1) as (s' & zs & -> & G2 & P & L & V).
    exists s', (if x_refs v =? 1 then d :: zs else zs). split; [reflexivity|].
    split; [|split; [exact P|split; [exact L|]]].
    + revert G2. apply Good_todo. unfold todo1. destruct (x_refs v =? 1); [|reflexivity].
      cbn [app]. symmetry. apply Permutation_middle.
    + rewrite V. pose proof (live_put s d v (Some (with_refs v (x_refs v - 1))) E) as H. change (live s1 + 1 = live s + 1)%nat in H. lia.
Qed.

Lemma live_pos s i v : get s i = Some v -> (0 < live s)%nat.
Proof. intros E. pose proof (live_put s i v None E) as H. change (live (put s i None) + 1 = live s + 0)%nat in H. lia. Qed.

Lemma free_ok f : forall s ext att todo, Good s ext att todo -> (live s <= f)%nat ->
  exists s' att' l, free f s todo = Some s' /\ Good s' ext att' [] /\ prefixes s' = prefixes s /\ log s' = log s ++ l /\
    (forall j a, att' j = Some a -> att j = Some a) /\ NoDup (map fst l) /\
    (forall j x, In (j, x) l <-> att' j = None /\ exists a, att j = Some a /\ a_cb a = Some x) /\
    (forall l1 j x l2, l = l1 ++ (j, x) :: l2 ->
       forall a, att j = Some a -> forall k, In k (snd (a_shape a)) -> ~ In k (map fst l1)).
Proof.
  induction f as [|f IH]; intros s ext att [|i w] G L; cbn [free].
  1, 3: exists s, att, []; rewrite app_nil_r; (split; [reflexivity|]); (split; [exact G|]); (split; [reflexivity|]);
    (split; [reflexivity|]); (split; [auto|]); (split; [apply NoDup_nil|]);
    (split; [intros j x; split; [intros []|intros [N1 (a & A & _)]; congruence]|intros [|? ?] ? ? ? Q; discriminate Q]).
  - exfalso. destruct (proj1 (g_todo _ _ _ _ G i) (or_introl eq_refl)) as (v & E & _). pose proof (live_pos _ _ _ E). lia.
  - destruct (proj1 (g_todo _ _ _ _ G i) (or_introl eq_refl)) as (v & E & R0). rewrite E.
    destruct (Good_drop _ _ _ _ _ _ G E) as [G1 L1].
    destruct (drop_view s i v) as (_ & P1 & _ & _ & LG & _).
    destruct (dec_all_ok _ _ _ _ _ G1) as (s2 & zs & -> & G2 & P2 & LG2 & L2).
    assert (exists s' att' l, free f s2 (match zs with [] => w | z :: r => z :: rev r ++ w end) = Some s' /\
      Good s' ext att' [] /\ prefixes s' = prefixes s2 /\ log s' = log s2 ++ l /\
      (forall j a, att' j = Some a -> fset att i None j = Some a) /\ NoDup (map fst l) /\
      (forall j x, In (j, x) l <-> att' j = None /\ exists a, fset att i None j = Some a /\ a_cb a = Some x) /\
      (forall l1 j x l2, l = l1 ++ (j, x) :: l2 ->
         forall a, fset att i None j = Some a -> forall k, In k (snd (a_shape a)) -> ~ In k (map fst l1)))
      as (s' & att' & l & F & G3 & P3 & LG3 & SUB & ND & IFF & ORD).
    { apply IH; [|lia]. destruct zs as [|z r]; [exact G2|]. revert G2. apply Good_todo.
      cbn [app]. constructor. apply Permutation_app_tail. apply Permutation_rev. }
    destruct (g_att _ _ _ _ G _ _ E) as (a & EA & [M1 [_ M2]]).
    exists s', att', (match a_cb a with Some d => [(i, d)] | None => [] end ++ l).
    split; [destruct zs; exact F|]. split; [exact G3|]. split; [congruence|].
    split; [rewrite LG3, LG2, LG, M2; now rewrite app_assoc|].
    assert (AI : att' i = None).
    { destruct (att' i) as [b|] eqn:Q; [|reflexivity]. apply SUB in Q. unfold fset in Q. rewrite Nat.eqb_refl in Q. discriminate. }
    assert (NI : ~ In i (map fst l)).
    { intros H. apply in_map_iff in H as ([j x] & Y & H). cbn [fst] in Y. subst j. apply IFF in H as [_ (b & Bb & _)].
      unfold fset in Bb. rewrite Nat.eqb_refl in Bb. discriminate. }
    split; [|split; [|split]].
    + intros j b H. apply SUB in H. unfold fset in H. destruct (Nat.eqb j i); [discriminate|exact H].
    + destruct (a_cb a); [cbn [app map fst]; now constructor|exact ND].
    + intros j x. rewrite in_app_iff, IFF. unfold fset. destruct (Nat.eqb_spec j i) as [->|NE].
      * split.
        -- intros [H|[_ (b & Bb & _)]]; [|discriminate Bb]. split; [exact AI|]. exists a. split; [exact EA|].
           destruct (a_cb a); [|destruct H]. destruct H as [[= ->]|[]]. reflexivity.
        -- intros [_ (b & Bb & Y)]. left. assert (b = a) by congruence. subst b. rewrite Y. now left.
      * split; [|auto]. intros [H|H]; [|exact H]. destruct (a_cb a); [|destruct H]. destruct H as [[= -> _]|[]]. congruence.
    + intros l1 j x l2 Q b Bb k Kk.
      assert (NIk : forall j0 b0 k0, att j0 = Some b0 -> In k0 (snd (a_shape b0)) -> k0 <> i).
      { intros j0 b0 k0 H1 H2 ->. destruct (att_get _ _ _ _ G _ _ H1) as (u & Gu & [W1 _]).
        assert (H3 : In i (deps s)) by (apply In_deps; exists j0, u; split; [exact Gu|rewrite W1 in H2; exact H2]).
        rewrite (g_refs _ _ _ _ G _ _ E), count_app in R0. apply count_In in H3. lia. }
      assert (REC : forall l1', l = l1' ++ (j, x) :: l2 -> ~ In k (map fst l1')).
      { intros l1' Q'. apply (ORD _ _ _ _ Q' b); [|exact Kk]. unfold fset. destruct (Nat.eqb_spec j i) as [->|_]; [|exact Bb].
        exfalso. apply NI. rewrite Q'. rewrite map_app, in_app_iff. right. now left. }
      destruct (a_cb a) as [d|]; [|exact (REC l1 Q)].
      destruct l1 as [|[i1 x1] l1]; [intros []|]. cbn [app] in Q. injection Q as <- <- Q.
      cbn [map fst In]. intros [->|H]; [exact (NIk _ _ _ Bb Kk eq_refl)|exact (REC _ Q H)].
Qed.

(** * Reach *)
Lemma Good_reach s ext att : Good s ext att [] -> forall j a, att j = Some a -> reach att ext j.
Proof.
  intros G. destruct (g_rank _ _ _ _ G) as (rank & M & R).
  assert (H : forall n j v, get s j = Some v -> (M - rank j < n)%nat -> reach att ext j).
  { induction n as [|n IH]; intros j v E L; [lia|].
    pose proof (pos _ _ _ _ _ G E) as P. rewrite (g_refs _ _ _ _ G _ _ E) in P.
    assert (IJ : In j (ext ++ deps s)) by (apply count_In; lia).
    apply in_app_iff in IJ as [IJ|IJ]; [now constructor|].
    apply In_deps in IJ as (i & w & Gi & D). destruct (g_att _ _ _ _ G _ _ Gi) as (b & Bb & [W _]).
    destruct (R _ _ Gi) as [R1 R2]. specialize (R2 _ D). destruct (R _ _ E) as [R3 _].
    apply (re_dep _ _ i j b); [|exact Bb|rewrite W; exact D]. apply (IH i w Gi). lia. }
  intros j a A. destruct (att_get _ _ _ _ G _ _ A) as (v & E & _). apply (H (S (M - rank j)) j v E). lia.
Qed.
Lemma reach_mono att att' ext j : (forall j a, att' j = Some a -> att j = Some a) -> reach att' ext j -> reach att ext j.
Proof. intros S1 H. induction H; [now constructor|]. eapply re_dep; eauto. Qed.
Lemma Good_reached s ext att att' : Good s ext att' [] -> (forall j a, att' j = Some a -> att j = Some a) ->
  forall j, reach att ext j -> att' j <> None.
Proof.
  intros G SUB j H. assert (Q : forall i, In i (ext ++ deps s) -> att' i <> None).
  { intros i I1 N1. apply (g_live _ _ _ _ G _ I1). destruct (get s i) as [v|] eqn:E; [|reflexivity].
    destruct (g_att _ _ _ _ G _ _ E) as (a & A & _). congruence. }
  induction H as [i H|i j a H IH A D]; [apply Q, in_or_app; auto|].
  destruct (att' i) as [b|] eqn:B; [|congruence]. pose proof (SUB _ _ B) as B'. assert (b = a) by congruence. subst b.
  apply Q, in_or_app. right. apply In_deps. destruct (att_get _ _ _ _ G _ _ B) as (v & E & [W _]).
  exists i, v. split; [exact E|]. rewrite W in D. exact D.
Qed.

Lemma dec_ok s c i : Good s (c_ext c) (c_att c) [] -> In i (c_ext c) ->
  exists s' c', dec_ref s i = Some s' /\ Good s' (c_ext c') (c_att c') [] /\ prefixes s' = prefixes s /\
    (log s = c_log c -> log s' = c_log c') /\ effect c (Dec i) RNone c' /\ c_pre c' = c_pre c.
Proof.
  intros G H. unfold dec_ref.
  assert (G0 : Good s ([i] ++ drop_one i (c_ext c)) (c_att c) []).
  { revert G. apply Good_ext. intros j. cbn [app]. rewrite count_cons. pose proof (count_drop i j _ H). lia. }
  destruct (dec_all_ok _ _ _ _ _ G0) as (s1 & zs & -> & G1 & P1 & L1 & V1). rewrite app_nil_r in G1.
  destruct (free_ok (length (vars s1)) _ _ _ _ G1 (live_le s1)) as (s2 & att' & l & -> & G2 & P2 & L2 & SUB & ND & IFF & ORD).
  exists s2, {| c_ext := drop_one i (c_ext c); c_att := att'; c_pre := c_pre c; c_log := c_log c ++ l |}.
  split; [reflexivity|]. split; [exact G2|]. split; [congruence|]. split; [cbn [c_log]; intros <-; congruence|].
  split; [|reflexivity]. apply ef_dec with (l := l); auto. cbn [c_att c_ext]. intros j a. split.
  - intros A. split; [auto|]. apply (reach_mono _ _ _ _ SUB). exact (Good_reach _ _ _ G2 _ _ A).
  - intros [A R]. pose proof (Good_reached _ _ _ _ G2 SUB _ R) as Q. destruct (att' j) as [b|] eqn:B; [|congruence].
    apply SUB in B. congruence.
Qed.
