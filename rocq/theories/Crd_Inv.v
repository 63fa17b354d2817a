(** Invariant of the states of Crd_Model: exact reference counts and ownership. *)
From Verif Require Import Base Crd_Model Crd_Spec.
Local Open Scope N_scope.
#[local] Ltac Zify.zify_post_hook ::= idtac.

Definition dep_of (o : option var) : list nat :=
  match o with Some v => match x_dep v with Some p => [p] | None => [] end | None => [] end.
Definition deps (s : state) : list nat := flat_map dep_of (vars s).
Definition idx_of (s : state) (e : nat * N) : list nat :=
  match blocks s (snd e) with Some bs => map b_index bs | None => [] end.
Definition cidx (s : state) : list nat := flat_map (idx_of s) (cache s).
Definition refs_of (s : state) (i : nat) : N := match get s i with Some v => x_refs v | None => 0 end.
Definition live (s : state) : nat :=
  length (filter (fun o : option var => match o with Some _ => true | None => false end) (vars s)).

Definition apart (v u : var) : Prop := x_off v + x_len v <= x_off u \/ x_off u + x_len u <= x_off v.

Record Inv (s : state) (ext : list nat) (pb : list N) : Prop := {
  i_refs : forall i, refs_of s i = N.of_nat (count i (ext ++ cidx s ++ deps s));
  i_pos : forall i v, get s i = Some v -> x_refs v <> 0;
  i_cnd : NoDup (map fst (cache s));
  i_clive : forall i a, In (i, a) (cache s) -> get s i <> None;
  i_bnd : NoDup (map snd (cache s) ++ pb);
  i_block : forall a, blocks s a <> None <-> In a (map snd (cache s) ++ pb);
  i_nextb : forall a, blocks s a <> None -> a < next s;
  i_next : forall a, bufs s a <> None -> a < next s;
  i_own : forall i v, get s i = Some v -> x_own v = true ->
     x_dep v = None /\ exists l, bufs s (x_buf v) = Some l /\ x_off v + x_len v <= N.of_nat (length l);
  i_own1 : forall i j v u, get s i = Some v -> get s j = Some u -> x_own v = true -> x_own u = true ->
     x_buf v = x_buf u -> i = j;
  i_sub : forall i v, get s i = Some v -> x_own v = false ->
     exists p u l, x_dep v = Some p /\ get s p = Some u /\ x_own u = true /\ x_buf u = x_buf v /\
       bufs s (x_buf v) = Some l /\ x_off v + x_len v <= N.of_nat (length l);
  i_apart : forall i j v u, get s i = Some v -> get s j = Some u -> i <> j ->
     x_own v = false -> x_own u = false -> x_buf v = x_buf u -> apart v u;
  i_used : forall a, bufs s a <> None -> exists i v, get s i = Some v /\ x_own v = true /\ x_buf v = a
}.

Lemma count_app i l1 l2 : count i (l1 ++ l2) = (count i l1 + count i l2)%nat.
Proof. apply count_occ_app. Qed.
Lemma count_cons i j l : count i (j :: l) = ((if Nat.eq_dec j i then 1 else 0) + count i l)%nat.
Proof. unfold count. cbn [count_occ]. destruct (Nat.eq_dec j i); reflexivity. Qed.
Lemma count_In i l : In i l <-> (0 < count i l)%nat.
Proof. unfold count. rewrite (count_occ_In Nat.eq_dec). lia. Qed.
Lemma count_perm i l1 l2 : Permutation l1 l2 -> count i l1 = count i l2.
Proof. intros P. unfold count. apply (proj1 (Permutation_count_occ Nat.eq_dec l1 l2) P). Qed.

Lemma Inv_ext s l1 l2 pb : (forall i, count i l1 = count i l2) -> Inv s l1 pb -> Inv s l2 pb.
Proof.
  intros C H. destruct H. split; auto. intros i. rewrite i_refs0, !count_app, C. reflexivity.
Qed.

(** * Slots *)
Lemma get_set s i o j : (i < length (vars s))%nat ->
  get (set_vars s (set_nth i o (vars s))) j = if Nat.eqb j i then o else get s j.
Proof.
  intros L. unfold get, set_vars. cbn [vars]. destruct (Nat.eqb_spec j i) as [->|NE].
  - rewrite nth_error_set_nth_eq by exact L. destruct o; reflexivity.
  - rewrite nth_error_set_nth_neq by auto. reflexivity.
Qed.

Lemma get_lt s i v : get s i = Some v -> (i < length (vars s))%nat.
Proof.
  unfold get. destruct (nth_error (vars s) i) eqn:E; [|discriminate]. intros _. apply nth_error_Some. congruence.
Qed.

Lemma set_split {A} (l : list A) i x o : nth_error l i = Some x ->
  exists l1 l2, l = l1 ++ x :: l2 /\ length l1 = i /\ set_nth i o l = l1 ++ o :: l2.
Proof.
  revert i; induction l as [|y l IH]; intros [|i] H; cbn in *; try discriminate.
  - injection H as ->. exists [], l. auto.
  - destruct (IH _ H) as (l1 & l2 & -> & L & E). exists (y :: l1), l2. cbn. rewrite E. auto.
Qed.

Lemma deps_set s i v o j : get s i = Some v ->
  (count j (flat_map dep_of (set_nth i o (vars s))) + count j (dep_of (Some v)) =
   count j (deps s) + count j (dep_of o))%nat.
Proof.
  unfold get. destruct (nth_error (vars s) i) as [[u|]|] eqn:E; try discriminate. intros [= ->].
  destruct (set_split _ _ _ o E) as (l1 & l2 & EQ & _ & ->). unfold deps. rewrite EQ.
  rewrite !flat_map_app. cbn [flat_map]. rewrite !count_app. lia.
Qed.

Lemma live_le s : (live s <= length (vars s))%nat.
Proof. unfold live. induction (vars s) as [|o l IH]; cbn; [lia|]. destruct o; cbn; lia. Qed.

Lemma live_set s i v o : get s i = Some v ->
  (live (set_vars s (set_nth i o (vars s))) + 1 = live s + match o with Some _ => 1 | None => 0 end)%nat.
Proof.
  unfold get. destruct (nth_error (vars s) i) as [[u|]|] eqn:E; try discriminate. intros [= ->].
  destruct (set_split _ _ _ o E) as (l1 & l2 & EQ & _ & EQ2). unfold live, set_vars. cbn [vars]. rewrite EQ2, EQ.
  rewrite !filter_app, !app_length. cbn [filter]. destruct o; cbn [length]; lia.
Qed.

Lemma first_free_spec l : (first_free l <= length l)%nat /\
  match nth_error l (first_free l) with Some (Some _) => False | _ => True end.
Proof.
  induction l as [|[v|] l [IH1 IH2]]; cbn [first_free length nth_error]; auto; split; auto; lia.
Qed.

Lemma new_var_spec s v : let s' := fst (new_var s v) in let i := snd (new_var s v) in
  get s i = None /\ get s' i = Some v /\ (forall j, j <> i -> get s' j = get s j) /\
  bufs s' = bufs s /\ blocks s' = blocks s /\ next s' = next s /\ cache s' = cache s /\
  registry s' = registry s /\
  (forall j, count j (deps s') = count j (deps s) + count j (dep_of (Some v)))%nat.
Proof.
  unfold new_var. cbn [fst snd]. set (i := first_free (vars s)).
  destruct (first_free_spec (vars s)) as [A B]. fold i in A, B.
  assert (G : get s i = None).
  { unfold get. destruct (nth_error (vars s) i) as [[u|]|]; [destruct B|reflexivity|reflexivity]. }
  split; [exact G|]. destruct (Nat.ltb_spec i (length (vars s))) as [L|L].
  - split; [rewrite get_set by exact L; now rewrite Nat.eqb_refl|].
    split; [intros j NE; rewrite get_set by exact L; destruct (Nat.eqb_spec j i); [congruence|reflexivity]|].
    do 5 (split; [reflexivity|]). intros j. unfold deps, set_vars. cbn [vars].
    destruct (nth_error (vars s) i) as [[u|]|] eqn:E; [destruct B| |].
    + destruct (set_split _ _ _ (Some v) E) as (l1 & l2 & EQ & _ & ->). rewrite EQ.
      rewrite !flat_map_app. cbn [flat_map]. rewrite !count_app. cbn [dep_of]. unfold count at 5. cbn. lia.
    + apply nth_error_None in E. lia.
  - assert (i = length (vars s)) by lia. unfold get, set_vars. cbn [vars].
    split; [rewrite nth_error_app2 by lia; now rewrite H, Nat.sub_diag|].
    split; [|do 5 (split; [reflexivity|]); intros j; unfold deps; cbn [vars]; rewrite flat_map_app, count_app; cbn [flat_map]; now rewrite app_nil_r].
    intros j NE. destruct (Nat.ltb_spec j (length (vars s))).
    + now rewrite nth_error_app1 by lia.
    + rewrite (proj2 (nth_error_None (vars s) j)) by lia.
      rewrite (proj2 (nth_error_None (vars s ++ [Some v]) j)); [reflexivity|]. rewrite app_length. cbn. lia.
Qed.

(** * Cache *)
Lemma position_some i l k : position i l = Some k ->
  (k < length l)%nat /\ fst (nth k l (0%nat, 0)) = i.
Proof.
  revert k; induction l as [|e l IH]; intros k H; cbn in *; [discriminate|].
  destruct (Nat.eqb_spec (fst e) i) as [E|E]; [injection H as <-; split; [lia|exact E]|].
  destruct (position i l) as [k'|]; [|discriminate]. injection H as <-. destruct (IH _ eq_refl). split; [lia|auto].
Qed.

Lemma position_none i l : position i l = None -> ~ In i (map fst l).
Proof.
  induction l as [|e l IH]; cbn; [auto|]. destruct (Nat.eqb_spec (fst e) i) as [E|E]; [discriminate|].
  destruct (position i l); [discriminate|]. intros _ [H|H]; [congruence|]. now apply IH.
Qed.

Lemma position_in i a l : NoDup (map fst l) -> In (i, a) l ->
  exists k, position i l = Some k /\ snd (nth k l (0%nat, 0)) = a.
Proof.
  induction l as [|e l IH]; cbn [position map In]; [intros _ []|]. intros ND I.
  inversion ND as [|? ? N1 N2]; subst. destruct (Nat.eqb_spec (fst e) i) as [E|E].
  - exists 0%nat. split; [reflexivity|]. destruct I as [->|I]; [reflexivity|].
    destruct N1. rewrite E. change i with (fst (i, a)). now apply in_map.
  - destruct I as [->|I]; [cbn in E; congruence|]. destruct (IH N2 I) as (k & K1 & K2). rewrite K1.
    exists (S k). auto.
Qed.

Lemma take_out_perm k l : (k < length l)%nat -> Permutation l (nth k l (0%nat, 0) :: take_out k l).
Proof.
  intros L. destruct l as [|e l0] eqn:EL; [cbn in L; lia|].
  destruct (exists_last (l := e :: l0)) as (l' & z & E); [discriminate|]. rewrite E in *.
  unfold take_out. rewrite last_last. rewrite app_length in L. cbn in L.
  destruct (Nat.eq_dec k (length l')) as [->|NE].
  - rewrite app_nth2, Nat.sub_diag by lia. cbn [nth].
    assert (X : nth_error (l' ++ [z]) (length l') = Some z) by (rewrite nth_error_app2, Nat.sub_diag by lia; reflexivity).
    destruct (set_split _ _ _ z X) as (l1 & l2 & E1 & E2 & ->).
    assert (E3 : l' ++ [z] = l1 ++ z :: l2) by exact E1. rewrite <- E3, removelast_last.
    symmetry. apply Permutation_cons_append.
  - assert (L2 : (k < length l')%nat) by lia. destruct (nth_error l' k) as [x|] eqn:X; [|apply nth_error_None in X; lia].
    rewrite app_nth1 by lia. rewrite (nth_error_nth _ _ _ X).
    destruct (set_split _ _ _ z X) as (l1 & l2 & E1 & E2 & _).
    assert (X' : nth_error (l' ++ [z]) k = Some x) by (rewrite nth_error_app1 by lia; exact X).
    destruct (set_split _ _ _ z X') as (m1 & m2 & F1 & F2 & ->). rewrite E1 in F1.
    rewrite <- app_assoc in F1. cbn in F1. assert (l1 = m1 /\ x :: l2 ++ [z] = x :: m2) as [<- F3].
    { clear - F1 E2 F2. rewrite <- F2 in E2. clear F2. revert m1 F1 E2. induction l1 as [|a l1 IH]; intros [|b m1] F L; cbn in *; try discriminate; auto.
      injection F as -> F. injection L as L. destruct (IH _ F L) as [-> ?]. auto. }
    injection F3 as <-. replace (l1 ++ z :: l2 ++ [z]) with ((l1 ++ z :: l2) ++ [z]) by (rewrite <- app_assoc; reflexivity).
    rewrite removelast_last, E1, <- app_assoc. cbn.
    rewrite <- Permutation_middle. apply perm_skip. apply Permutation_app_head. symmetry. apply Permutation_cons_append.
Qed.

(** What releases leave alone *)
Record frame (s s' : state) : Prop := {
  fr_len : length (vars s') = length (vars s);
  fr_next : next s' = next s;
  fr_reg : registry s' = registry s;
  fr_get : forall j u, get s' j = Some u -> exists v, get s j = Some v /\ x_buf u = x_buf v /\
     x_off u = x_off v /\ x_len u = x_len v /\ x_own u = x_own v /\ x_dep u = x_dep v;
  fr_buf : forall a, bufs s' a <> None -> bufs s' a = bufs s a;
  fr_block : forall a, blocks s' a <> None -> blocks s' a = blocks s a;
  fr_cache : forall e, In e (cache s') -> In e (cache s);
  fr_stay : forall e, In e (cache s) -> get s' (fst e) <> None -> In e (cache s');
  fr_live : (live s' <= live s)%nat
}.

Lemma frame_refl s : frame s s.
Proof. split; auto. intros j u G. exists u. tauto. Qed.

Lemma frame_trans s1 s2 s3 : frame s1 s2 -> frame s2 s3 -> frame s1 s3.
Proof.
  intros [A1 A2 A3 A4 A5 A6 A7 A8 A9] [B1 B2 B3 B4 B5 B6 B7 B8 B9]. split; try congruence; auto.
  - intros j u G. destruct (B4 _ _ G) as (v & G2 & E1 & E2 & E3 & E4 & E5).
    destruct (A4 _ _ G2) as (x & G3 & F1 & F2 & F3 & F4 & F5). exists x. repeat split; congruence.
  - intros a N1. rewrite B5 by exact N1. apply A5. rewrite <- B5; auto.
  - intros a N1. rewrite B6 by exact N1. apply A6. rewrite <- B6; auto.
  - intros e I N1. apply B8; [apply A8; auto|auto].
    destruct (get s3 (fst e)) as [u|] eqn:G; [|congruence]. destruct (B4 _ _ G) as (v & -> & _). discriminate.
  - lia.
Qed.

(** One reference less *)
Lemma dec_more s i ext pb v : Inv s (i :: ext) pb -> get s i = Some v -> x_refs v <> 1 ->
  let s' := set_vars s (set_nth i (Some (set_refs v (x_refs v - 1))) (vars s)) in
  Inv s' ext pb /\ frame s s'.
Proof.
  intros H G NE s'. pose proof (get_lt _ _ _ G) as L. pose proof (i_pos _ _ _ H _ _ G) as NZ.
  assert (GS : forall j, get s' j = if Nat.eqb j i then Some (set_refs v (x_refs v - 1)) else get s j)
    by (intros j; apply get_set; exact L).
  assert (SH : forall j u, get s' j = Some u -> exists x, get s j = Some x /\ x_buf u = x_buf x /\
     x_off u = x_off x /\ x_len u = x_len x /\ x_own u = x_own x /\ x_dep u = x_dep x).
  { intros j u. rewrite GS. destruct (Nat.eqb_spec j i) as [->|]; [intros [= <-]; exists v; repeat split; auto|].
    intros Q. exists u. tauto. }
  assert (SB : forall j x, get s j = Some x -> exists u, get s' j = Some u /\ x_buf u = x_buf x /\
     x_off u = x_off x /\ x_len u = x_len x /\ x_own u = x_own x /\ x_dep u = x_dep x).
  { intros j x Q. rewrite GS. destruct (Nat.eqb_spec j i) as [->|]; [|exists x; tauto].
    eexists. split; [reflexivity|]. replace x with v by congruence. cbn. tauto. }
  split.
  - split; change (cache s') with (cache s); change (blocks s') with (blocks s); change (bufs s') with (bufs s);
      change (next s') with (next s); try apply H.
    + intros j. unfold refs_of. rewrite GS. pose proof (i_refs _ _ _ H j) as R. unfold refs_of in R.
      pose proof (deps_set s i v (Some (set_refs v (x_refs v - 1))) j G) as D.
      cbn [dep_of set_refs x_dep] in D. change (deps s') with (flat_map dep_of (set_nth i (Some (set_refs v (x_refs v - 1))) (vars s))).
      change (cidx s') with (cidx s). rewrite !count_app in *. rewrite count_cons in R.
      destruct (Nat.eqb_spec j i) as [->|NJ].
      * rewrite G in R. destruct (Nat.eq_dec i i); [|congruence]. cbn [x_refs set_refs]. lia.
      * destruct (Nat.eq_dec i j); [congruence|]. destruct (get s j); lia.
    + intros j u. rewrite GS. destruct (Nat.eqb_spec j i) as [->|]; [|apply (i_pos _ _ _ H)].
      intros [= <-]. cbn. lia.
    + intros j a I. rewrite GS. destruct (Nat.eqb j i); [discriminate|]. eapply (i_clive _ _ _ H); eauto.
    + intros j u Q O. destruct (SH _ _ Q) as (x & X & E1 & E2 & E3 & E4 & E5). rewrite E1, E2, E3, E5.
      apply (i_own _ _ _ H j x X). congruence.
    + intros j k u y Q1 Q2 O1 O2 E. destruct (SH _ _ Q1) as (x & X & E1 & _ & _ & E4 & _).
      destruct (SH _ _ Q2) as (x2 & X2 & F1 & _ & _ & F4 & _).
      apply (i_own1 _ _ _ H j k x x2); congruence.
    + intros j u Q O. destruct (SH _ _ Q) as (x & X & E1 & E2 & E3 & E4 & E5). rewrite E1, E2, E3, E5.
      destruct (i_sub _ _ _ H j x X) as (p & w & l & W1 & W2 & W3 & W4 & W5 & W6); [congruence|].
      destruct (SB _ _ W2) as (w' & X1 & Y1 & Y2 & Y3 & Y4 & Y5).
      exists p, w', l. repeat split; auto; congruence.
    + intros j k u y Q1 Q2 N1 O1 O2 E. destruct (SH _ _ Q1) as (x & X & E1 & E2 & E3 & E4 & _).
      destruct (SH _ _ Q2) as (x2 & X2 & F1 & F2 & F3 & F4 & _). unfold apart. rewrite E2, E3, F2, F3.
      apply (i_apart _ _ _ H j k x x2); congruence.
    + intros a A. destruct (i_used _ _ _ H a A) as (j & x & X & O & B). destruct (SB _ _ X) as (u & U & E1 & _ & _ & E4 & _).
      exists j, u. repeat split; congruence.
  - split; auto.
    + unfold s', set_vars. cbn [vars]. apply set_nth_length.
    + unfold s'. pose proof (live_set s i v (Some (set_refs v (x_refs v - 1))) G) as Q. cbv iota in Q. lia.
Qed.

(** The last reference: the variable, its memory and its cache entry are gone; its
    buckets and the owner of its memory are to be released. *)
Definition vacate (s : state) (i : nat) (v : var) (c : list (nat * N)) : state :=
  {| vars := set_nth i None (vars s);
     bufs := if x_own v then fupd (bufs s) (x_buf v) None else bufs s;
     blocks := blocks s; next := next s; cache := c; registry := registry s |}.

Lemma vacate_inv s i ext pb v rel bl c : Inv s (i :: ext) pb -> get s i = Some v -> x_refs v = 1 ->
  Permutation (cache s) (map (fun a => (i, a)) bl ++ c) -> ~ In i (map fst c) ->
  rel = flat_map (fun a => idx_of s (i, a)) bl ->
  Inv (vacate s i v c) (rel ++ dep_of (Some v) ++ ext) (bl ++ pb) /\ frame s (vacate s i v c) /\
  (live (vacate s i v c) < live s)%nat.
Proof.
  intros H G R1 P NC RE. pose proof (get_lt _ _ _ G) as L. set (s' := vacate s i v c).
  assert (GS : forall j, get s' j = if Nat.eqb j i then None else get s j).
  { intros j. change (get s' j) with (get (set_vars s (set_nth i None (vars s))) j). now apply get_set. }
  assert (Z : count i (ext ++ cidx s ++ deps s) = 0%nat).
  { pose proof (i_refs _ _ _ H i) as R. unfold refs_of in R. rewrite G, R1 in R. cbn [app] in R. rewrite count_cons in R.
    destruct (Nat.eq_dec i i); [lia|congruence]. }
  assert (NODEP : forall j u, get s j = Some u -> x_dep u <> Some i).
  { intros j u Q E. rewrite !count_app in Z.
    assert (0 < count i (deps s))%nat; [|lia]. apply count_In. unfold deps. apply in_flat_map.
    unfold get in Q. destruct (nth_error (vars s) j) as [[y|]|] eqn:Y; try discriminate. injection Q as ->.
    exists (Some u). split; [eapply nth_error_In; eauto|]. cbn. rewrite E. now left. }
  assert (CI : forall j, count j (cidx s) = (count j rel + count j (flat_map (idx_of s) c))%nat).
  { intros j. unfold cidx. rewrite (count_perm j _ _ (Permutation_flat_map (idx_of s) P)).
    rewrite flat_map_app, count_app. subst rel. f_equal. f_equal.
    clear. induction bl as [|a bl IH]; cbn; [reflexivity|]. now rewrite IH. }
  assert (BN : forall a, bufs s' a <> None -> bufs s' a = bufs s a).
  { intros a. unfold s', vacate. cbn [bufs]. destruct (x_own v); [|auto]. unfold fupd. destruct (a =? x_buf v); congruence. }
  assert (BK : forall j u, get s' j = Some u -> bufs s' (x_buf u) = bufs s (x_buf u)).
  { intros j u. rewrite GS. destruct (Nat.eqb_spec j i) as [->|NE]; [discriminate|]. intros Q.
    unfold s', vacate. cbn [bufs]. destruct (x_own v) eqn:O; [|reflexivity]. unfold fupd.
    destruct (N.eqb_spec (x_buf u) (x_buf v)) as [E|]; [|reflexivity]. exfalso.
    destruct (x_own u) eqn:OU.
    - apply NE. eapply (i_own1 _ _ _ H j i u v); eauto.
    - destruct (i_sub _ _ _ H j u Q OU) as (p & w & l & W1 & W2 & W3 & W4 & _).
      assert (p = i) by (eapply (i_own1 _ _ _ H p i w v); eauto; congruence). subst p. exact (NODEP _ _ Q W1). }
  assert (PM : forall (f : nat * N -> N) , Permutation (map f (cache s)) (map f (map (fun a => (i, a)) bl) ++ map f c)).
  { intros f. rewrite <- map_app. now apply Permutation_map. }
  assert (BL : map snd (map (fun a : N => (i, a)) bl) = bl).
  { rewrite map_map. cbn. apply map_id. }
  assert (PS : Permutation (map snd (cache s) ++ pb) (map snd c ++ bl ++ pb)).
  { rewrite (PM snd), BL. rewrite Permutation_app_comm. rewrite (Permutation_app_comm (bl) (map snd c)).
    rewrite Permutation_app_comm, <- app_assoc. reflexivity. }
  assert (INC : forall e, In e c -> In e (cache s)).
  { intros e I. eapply Permutation_in; [symmetry; exact P|]. apply in_or_app. now right. }
  assert (LV : (live s' < live s)%nat).
  { change (live s') with (live (set_vars s (set_nth i None (vars s)))). pose proof (live_set s i v None G) as Q. cbv iota in Q. lia. }
  split; [|split; [|exact LV]].
  - split; change (cache s') with c; change (blocks s') with (blocks s); change (next s') with (next s).
    + intros j. unfold refs_of. rewrite GS. pose proof (i_refs _ _ _ H j) as R. unfold refs_of in R.
      pose proof (deps_set s i v None j G) as D. change (count j (dep_of None)) with 0%nat in D.
      change (deps s') with (flat_map dep_of (set_nth i None (vars s))).
      change (cidx s') with (flat_map (idx_of s) c).
      rewrite !count_app in *. cbn [app] in R. rewrite count_cons in R. rewrite CI in *.
      destruct (Nat.eqb_spec j i) as [->|NJ].
      * change (count i (dep_of (Some v))) with (count i (dep_of (Some v))) in *. lia.
      * destruct (Nat.eq_dec i j); [congruence|]. destruct (get s j); lia.
    + intros j u. rewrite GS. destruct (Nat.eqb_spec j i) as [->|]; [discriminate|apply (i_pos _ _ _ H)].
    + assert (ND : NoDup (map fst (map (fun a => (i, a)) bl ++ c))).
      { eapply Permutation_NoDup; [apply Permutation_map; exact P|apply (i_cnd _ _ _ H)]. }
      rewrite map_app in ND. clear - ND. induction (map fst (map (fun a : N => (i, a)) bl)) as [|x l IH]; [exact ND|].
      inversion ND; auto.
    + intros j a I. rewrite GS. destruct (Nat.eqb_spec j i) as [->|].
      * destruct NC. change i with (fst (i, a)). now apply in_map.
      * eapply (i_clive _ _ _ H). apply INC. exact I.
    + eapply Permutation_NoDup; [exact PS|]. apply (i_bnd _ _ _ H).
    + intros a. rewrite (i_block _ _ _ H a). split; apply Permutation_in; [exact PS|symmetry; exact PS].
    + apply (i_nextb _ _ _ H).
    + intros a A. apply (i_next _ _ _ H). rewrite <- BN; auto.
    + intros j u Q O. rewrite (BK _ _ Q). rewrite GS in Q. destruct (Nat.eqb j i); [discriminate|].
      apply (i_own _ _ _ H j u Q O).
    + intros j k u y. rewrite !GS. destruct (Nat.eqb j i); [discriminate|]. destruct (Nat.eqb k i); [discriminate|].
      apply (i_own1 _ _ _ H).
    + intros j u Q O. rewrite (BK _ _ Q). rewrite GS in Q. destruct (Nat.eqb j i); [discriminate|].
      destruct (i_sub _ _ _ H j u Q O) as (p & w & l & W1 & W2 & W).
      exists p, w, l. split; [exact W1|]. split; [|exact W]. rewrite GS. destruct (Nat.eqb_spec p i) as [->|]; [|exact W2].
      destruct (NODEP _ _ Q W1).
    + intros j k u y. rewrite !GS. destruct (Nat.eqb j i); [discriminate|]. destruct (Nat.eqb k i); [discriminate|].
      apply (i_apart _ _ _ H).
    + intros a A. pose proof (BN _ A) as E. rewrite E in A. destruct (i_used _ _ _ H a A) as (j & u & Q & O & B).
      exists j, u. rewrite GS. destruct (Nat.eqb_spec j i) as [->|]; [|auto].
      exfalso. replace u with v in * by congruence. rewrite <- E in A. unfold s', vacate in A. cbn [bufs] in A.
      rewrite O in A. unfold fupd in A. subst a. rewrite N.eqb_refl in A. congruence.
  - split; auto.
    + apply set_nth_length.
    + intros j u. rewrite GS. destruct (Nat.eqb j i); [discriminate|]. intros Q. exists u. tauto.
    + intros e I. rewrite GS. destruct (Nat.eqb_spec (fst e) i) as [E|NE]; [congruence|]. intros _.
      apply (Permutation_in _ P) in I. apply in_app_or in I as [I|I]; [|exact I].
      apply in_map_iff in I as (a & <- & _). cbn in NE. congruence.
    + lia.
Qed.

Lemma release_block_inv s a ext pb : Inv s ext (a :: pb) ->
  exists s', release_block s a = Ret s' /\ Inv s' ext pb /\ frame s s'.
Proof.
  intros H. assert (NB : blocks s a <> None) by (apply (i_block _ _ _ H); apply in_or_app; right; now left).
  unfold release_block. destruct (blocks s a) as [bs|] eqn:B; [|congruence]. eexists. split; [reflexivity|].
  pose proof (i_bnd _ _ _ H) as ND. apply NoDup_remove in ND as [ND1 ND2].
  assert (CI : cidx (set_blocks s (fupd (blocks s) a None)) = cidx s).
  { unfold cidx. cbn [cache set_blocks]. idtac.
    assert (X : forall l, (forall e, In e l -> snd e <> a) ->
      flat_map (idx_of (set_blocks s (fupd (blocks s) a None))) l = flat_map (idx_of s) l).
    { induction l as [|e l IH]; intros Q; cbn [flat_map]; [reflexivity|]. rewrite IH by (intros; apply Q; now right).
      f_equal. unfold idx_of. cbn [blocks set_blocks]. unfold fupd.
      destruct (N.eqb_spec (snd e) a) as [E|]; [|reflexivity]. destruct (Q e); [now left|exact E]. }
    apply X. intros e I E. apply ND2. apply in_or_app. left. rewrite <- E. now apply in_map. }
  split.
  - split; try apply H.
    + intros i. change (refs_of (set_blocks s (fupd (blocks s) a None)) i) with (refs_of s i). rewrite CI. apply (i_refs _ _ _ H).
    + exact ND1.
    + intros x. cbn [blocks set_blocks cache]. unfold fupd. destruct (N.eqb_spec x a) as [->|NE].
      * split; [congruence|]. intros I. destruct (ND2 I).
      * rewrite (i_block _ _ _ H x). rewrite !in_app_iff. cbn. intuition congruence.
    + intros x. cbn [blocks set_blocks next]. unfold fupd. destruct (x =? a); [congruence|]. apply (i_nextb _ _ _ H).
  - split; auto.
    + intros j u Q. exists u. tauto.
    + intros x. cbn [blocks set_blocks]. unfold fupd. destruct (x =? a); congruence.
Qed.

(** * Releasing a reference *)
Lemma fold_dec f : (forall s i ext pb, Inv s (i :: ext) pb -> (live s < f)%nat ->
    exists s', dec f s i = Ret s' /\ Inv s' ext pb /\ frame s s') ->
  forall (bs : list bucket) s ext pb, Inv s (map b_index bs ++ ext) pb -> (live s < f)%nat ->
  exists s', fold_out (fun s b => dec f s (b_index b)) s bs = Ret s' /\ Inv s' ext pb /\ frame s s'.
Proof.
  intros D. induction bs as [|b bs IH]; intros s ext pb H L; cbn [fold_out].
  - exists s. split; [reflexivity|]. split; [exact H|apply frame_refl].
  - destruct (D _ _ _ _ H L) as (s1 & E1 & H1 & F1). rewrite E1. cbn [obind].
    destruct (IH s1 ext pb H1) as (s2 & E2 & H2 & F2); [pose proof (fr_live _ _ F1); lia|].
    exists s2. split; [exact E2|]. split; [exact H2|eapply frame_trans; eauto].
Qed.

Lemma dec_ok : forall f s i ext pb, Inv s (i :: ext) pb -> (live s < f)%nat ->
  exists s', dec f s i = Ret s' /\ Inv s' ext pb /\ frame s s'.
Proof.
  induction f as [|f IH]; intros s i ext pb H L; [lia|]. cbn [dec].
  assert (NZ : refs_of s i <> 0).
  { rewrite (i_refs _ _ _ H i). cbn [app]. rewrite count_cons. destruct (Nat.eq_dec i i); [lia|congruence]. }
  unfold refs_of in NZ. destruct (get s i) as [v|] eqn:G; [|congruence].
  destruct (N.eqb_spec (x_refs v) 0) as [E|_]; [congruence|].
  destruct (N.eqb_spec (x_refs v) 1) as [R1|R1]; cbn [negb].
  2:{ eexists. split; [reflexivity|]. eapply dec_more; eauto. }
  set (c0 := cache s).
  assert (BUF : (if x_own v then release_buffer s (x_buf v) else Ret s) =
    Ret (set_bufs s (if x_own v then fupd (bufs s) (x_buf v) None else bufs s))).
  { destruct (x_own v) eqn:O; [|destruct s; reflexivity]. unfold release_buffer.
    destruct (i_own _ _ _ H i v G O) as (_ & l & -> & _). reflexivity. }
  rewrite BUF. cbn [obind].
  set (s2 := set_vars _ _). assert (C2 : cache s2 = c0) by reflexivity. rewrite C2.
  assert (TAIL : forall s3, Inv s3 (dep_of (Some v) ++ ext) pb -> frame s s3 -> (live s3 < live s)%nat ->
    exists s', match x_dep v with None => Ret s3 | Some p => dec f s3 p end = Ret s' /\ Inv s' ext pb /\ frame s s').
  { intros s3 H3 F3 L3. cbn [dep_of] in H3. destruct (x_dep v) as [p|].
    - destruct (IH s3 p ext pb H3) as (s' & E & H' & F'); [lia|]. exists s'. split; [exact E|]. split; [exact H'|eapply frame_trans; eauto].
    - exists s3. auto. }
  destruct (position i c0) as [k|] eqn:K.
  - destruct (position_some _ _ _ K) as [KL KI]. pose proof (take_out_perm k c0 KL) as P.
    set (a := snd (nth k c0 (0%nat, 0))) in *.
    assert (EN : nth k c0 (0%nat, 0) = (i, a)) by (unfold a; destruct (nth k c0 (0%nat, 0)); cbn in *; congruence).
    rewrite EN in P.
    assert (NB : blocks s a <> None).
    { apply (i_block _ _ _ H). apply in_or_app. left. change a with (snd (i, a)). apply in_map.
      eapply Permutation_in; [symmetry; exact P|]. now left. }
    change (blocks s2 a) with (blocks s a). destruct (blocks s a) as [bs|] eqn:B; [|congruence].
    assert (NI : ~ In i (map fst (take_out k c0))).
    { pose proof (Permutation_NoDup (Permutation_map fst P) (i_cnd _ _ _ H)) as ND. now inversion ND. }
    destruct (vacate_inv s i ext pb v (map b_index bs) [a] (take_out k c0) H G R1) as (H1 & F1 & L1); auto.
    { cbn. unfold idx_of. cbn. now rewrite B, app_nil_r. }
    change (set_cache s2 (take_out k c0)) with (vacate s i v (take_out k c0)).
    destruct (fold_dec f IH bs (vacate s i v (take_out k c0)) (dep_of (Some v) ++ ext) (a :: pb) H1) as (s3 & E3 & H3 & F3); [lia|].
    rewrite E3. cbn [obind]. destruct (release_block_inv _ _ _ _ H3) as (s4 & E4 & H4 & F4). rewrite E4. cbn [obind].
    apply TAIL; [exact H4|eapply frame_trans; [exact F1|eapply frame_trans; eauto]|].
    pose proof (fr_live _ _ F3). pose proof (fr_live _ _ F4). lia.
  - cbn [obind]. destruct (vacate_inv s i ext pb v [] [] c0 H G R1) as (H1 & F1 & L1);
      [reflexivity|now apply position_none|reflexivity|].
    cbn [app] in H1. change s2 with (vacate s i v c0). apply TAIL; auto.
Qed.

Lemma dec_ref_ok s i ext pb : Inv s (i :: ext) pb ->
  exists s', dec_ref s i = Ret s' /\ Inv s' ext pb /\ frame s s'.
Proof. intros H. apply dec_ok; [exact H|]. pose proof (live_le s). lia. Qed.

(** Contents of arrays that are still there *)
Lemma frame_data s s' ext pb j : frame s s' -> Inv s' ext pb -> get s' j <> None -> data s' j = data s j.
Proof.
  intros F H N1. destruct (get s' j) as [u|] eqn:G; [|congruence].
  destruct (fr_get _ _ F _ _ G) as (v & G2 & E1 & E2 & E3 & E4 & E5).
  assert (NB : bufs s' (x_buf u) <> None).
  { destruct (x_own u) eqn:O.
    - destruct (i_own _ _ _ H _ _ G O) as (_ & l & -> & _). discriminate.
    - destruct (i_sub _ _ _ H _ _ G O) as (p & w & l & _ & _ & _ & _ & -> & _). discriminate. }
  unfold data. rewrite G, G2. cbn [bind]. rewrite (fr_buf _ _ F _ NB), E1, E2, E3. reflexivity.
Qed.
