(** Reference counting: increments, decrements and the destruction of variables
    keep the invariant. *)
From Verif Require Import Base FreeSlots_Model FreeSlots_Spec FreeSlots_Proofs Var_Model Var_Spec Var_Inv.
Local Open Scope N_scope.

Definition plus1 (o : N -> N) (i : N) : N -> N := fun j => o j + (if j =? i then 1 else 0).
Definition plusl (o : N -> N) (l : list N) : N -> N := fun j => o j + occ l j.

(** ** Extensionality *)
Lemma cnts_eq f g al n own own' ownse ownse' todo :
  (forall j, g j = f j) -> (forall j, j <> 0 -> own' j = own j) -> (forall j, j <> 0 -> ownse' j = ownse j) ->
  cnts f al n own ownse todo -> cnts g al n own' ownse' todo.
Proof.
  intros E1 E2 E3 C.
  assert (R : forall j, refs g al n j = refs f al n j) by (intros; apply refs_ext; intros; now rewrite E1).
  assert (Rs : forall j, refs_se g al n j = refs_se f al n j) by (intros; apply refs_se_ext; intros; now rewrite E1).
  assert (NZ : forall j, al j = true -> j <> 0) by (intros j Hj; pose proof (c_range _ _ _ _ _ _ C j Hj); lia).
  constructor.
  - apply C.
  - intros j Hj. rewrite E1. now apply (c_free _ _ _ _ _ _ C).
  - intros j Hn Hj. rewrite E2, E3 by auto. now apply (c_own0 _ _ _ _ _ _ C).
  - intros j Hj. rewrite E1, E2, R by auto. now apply (c_rc _ _ _ _ _ _ C).
  - intros j Hj. rewrite E1, E3, Rs by auto. now apply (c_se _ _ _ _ _ _ C).
  - apply C.
  - intros j Hj. rewrite E1. now apply (c_todo _ _ _ _ _ _ C).
  - intros j Hj. rewrite E1. now apply (c_live _ _ _ _ _ _ C).
Qed.

Lemma cnts_perm f al n own ownse todo todo' :
  Permutation todo todo' -> cnts f al n own ownse todo -> cnts f al n own ownse todo'.
Proof.
  intros P C. constructor; try apply C.
  - eapply Permutation_NoDup; [exact P|apply C].
  - intros j Hj. apply (c_todo _ _ _ _ _ _ C). eapply Permutation_in; [symmetry|]; eauto.
  - intros j Hj. destruct (c_live _ _ _ _ _ _ C j Hj) as [|]; auto. left. eapply Permutation_in; eauto.
Qed.

Lemma INV_own s al own own' ownse ownse' todo hx :
  (forall j, j <> 0 -> own' j = own j) -> (forall j, j <> 0 -> ownse' j = ownse j) ->
  INV s al own ownse todo hx -> INV s al own' ownse' todo hx.
Proof.
  intros E1 E2 I. destruct I. constructor; auto. eapply cnts_eq; eauto.
Qed.

(** ** Changing the counts of one variable *)
Lemma cnts_set f g al n own own' ownse ownse' todo todo' i :
  cnts f al n own ownse todo -> al i = true -> core (g i) = core (f i) ->
  (forall j, j <> i -> g j = f j) ->
  (forall j, j <> 0 -> j <> i -> own' j = own j) -> (forall j, j <> 0 -> j <> i -> ownse' j = ownse j) ->
  v_rc (g i) + own i = v_rc (f i) + own' i -> v_se (g i) + ownse i = v_se (f i) + ownse' i ->
  NoDup todo' -> (forall j, j <> i -> (In j todo' <-> In j todo)) ->
  (In i todo' <-> v_rc (g i) = 0 /\ v_se (g i) = 0) ->
  cnts g al n own' ownse' todo'.
Proof.
  intros C Hi Ec Eg Eo Es Er Ese Nd T1 T2.
  assert (NZ : forall j, al j = true -> j <> 0) by (intros j Hj; pose proof (c_range _ _ _ _ _ _ C j Hj); lia).
  assert (Ecore : forall k, al k = true -> core (g k) = core (f k)).
  { intros k _. destruct (N.eq_dec k i) as [->|]; auto. now rewrite Eg. }
  assert (R : forall j, refs g al n j = refs f al n j) by (intros; now apply refs_ext).
  assert (Rs : forall j, refs_se g al n j = refs_se f al n j) by (intros; now apply refs_se_ext).
  constructor.
  - apply C.
  - intros j Hj. rewrite Eg by congruence. now apply (c_free _ _ _ _ _ _ C).
  - intros j Hn Hj. rewrite Eo, Es by congruence. now apply (c_own0 _ _ _ _ _ _ C).
  - intros j Hj. rewrite R. pose proof (c_rc _ _ _ _ _ _ C j Hj).
    destruct (N.eq_dec j i) as [->|]; [lia|]. rewrite Eg, Eo by auto. lia.
  - intros j Hj. rewrite Rs. pose proof (c_se _ _ _ _ _ _ C j Hj).
    destruct (N.eq_dec j i) as [->|]; [lia|]. rewrite Eg, Es by auto. lia.
  - exact Nd.
  - intros j Hj. destruct (N.eq_dec j i) as [->|]; [tauto|]. rewrite Eg by auto.
    apply (c_todo _ _ _ _ _ _ C). now apply T1.
  - intros j Hj. destruct (N.eq_dec j i) as [->|].
    + destruct (N.eq_dec (v_rc (g i)) 0); [|lia]. destruct (N.eq_dec (v_se (g i)) 0); [|lia]. left. now apply T2.
    + rewrite Eg, T1 by auto. now apply (c_live _ _ _ _ _ _ C).
Qed.

(** ** Steps that change reference counts only *)
Record counts_only (s s' : st) : Prop := {
  co_core : forall j, core (V s' j) = core (V s j);
  co_counter : forall j, v_counter (V s' j) = v_counter (V s j);
  co_len : length (vars s') = length (vars s);
  co_unused : unused s' = unused s;
  co_lvn : lvn s' = lvn s;
  co_ts : tscope s' = tscope s;
  co_sctr : sctr s' = sctr s;
  co_heap : heap s' = heap s }.

Lemma counts_only_refl s : counts_only s s.
Proof. constructor; auto. Qed.
Lemma counts_only_trans s1 s2 s3 : counts_only s1 s2 -> counts_only s2 s3 -> counts_only s1 s3.
Proof. intros A B. destruct A, B. constructor; intros; congruence. Qed.

Lemma INV_counts s s' al own own' ownse ownse' todo todo' hx :
  counts_only s s' -> INV s al own ownse todo hx ->
  cnts (V s') al (length (vars s')) own' ownse' todo' -> INV s' al own' ownse' todo' hx.
Proof.
  intros CO I C. constructor; auto.
  - rewrite (co_lvn _ _ CO), (co_heap _ _ CO), (co_ts _ _ CO), (co_sctr _ _ CO).
    eapply stat_ext; [|apply I]. intros. symmetry. apply CO.
  - destruct (I_slots _ _ _ _ _ _ I) as (F & H1 & H2). exists F. rewrite (co_unused _ _ CO).
    split; auto. unfold sz. rewrite (co_len _ _ CO). exact H2.
  - unfold sz. rewrite (co_len _ _ CO). apply I.
Qed.

Lemma vset_counts s i v : i < sz s -> core v = core (V s i) -> v_counter v = v_counter (V s i) ->
  exists s', vset s i v = Some s' /\ counts_only s s' /\ V s' i = v /\ (forall j, j <> i -> V s' j = V s j).
Proof.
  intros Hi Ec Ek. destruct (vset_spec s i v Hi) as (s' & E & Ev & El & E1 & E2 & E3 & E4 & E5).
  exists s'. split; [exact E|]. split; [|split].
  - constructor; auto; intros j; rewrite Ev; unfold fupd; destruct (N.eqb_spec j i) as [->|]; auto.
  - rewrite Ev. apply fupd_eq.
  - intros j Hj. rewrite Ev. now apply fupd_ne.
Qed.

Lemma core_set_rc v x : core (set_rc v x) = core v. Proof. reflexivity. Qed.
Lemma core_set_se v x : core (set_se v x) = core v. Proof. reflexivity. Qed.
Lemma core_set_counter v x : core (set_counter v x) = core v. Proof. reflexivity. Qed.

(** ** Increments *)
Lemma inc_ref_ok s al own ownse hx i :
  INV s al own ownse [] hx -> al i = true -> own i + 4 * sz s + 1 < 2 ^ 32 ->
  exists s', inc_ref s i = Some s' /\ INV s' al (plus1 own i) ownse [] hx /\ counts_only s s' /\
             V s' i = set_rc (V s i) (v_rc (V s i) + 1) /\ forall j, j <> i -> V s' j = V s j.
Proof.
  intros I Hi Hb. pose proof (al_range _ _ _ _ _ _ _ I Hi) as Hr. pose proof (rc_bound _ _ _ _ _ _ _ I Hi) as Hc.
  destruct (al_jitc _ _ _ _ _ _ I Hi) as (J & R).
  unfold inc_ref. destruct (N.eqb_spec i 0); [lia|]. rewrite J. cbn [bind]. rewrite u32_small by lia.
  destruct (vset_counts s i (set_rc (V s i) (v_rc (V s i) + 1))) as (s' & E & CO & Ei & Ej);
    [lia|reflexivity|reflexivity|].
  exists s'. split; [exact E|]. split; [|split; [exact CO|]; split; auto].
  eapply INV_counts; eauto. rewrite (co_len _ _ CO).
  refine (cnts_set _ _ _ _ _ _ _ _ _ _ i (I_cnt _ _ _ _ _ _ I) Hi _ Ej _ _ _ _ _ _ _).
  - rewrite Ei. reflexivity.
  - intros j Hn Hj. unfold plus1. destruct (N.eqb_spec j i); [congruence|lia].
  - reflexivity.
  - rewrite Ei. cbn. unfold plus1. rewrite N.eqb_refl. lia.
  - rewrite Ei. reflexivity.
  - constructor.
  - intros; reflexivity.
  - rewrite Ei. cbn. split; [easy|]. lia.
Qed.

Lemma inc_ref_se_ok s al own ownse hx i :
  INV s al own ownse [] hx -> al i = true -> v_se (V s i) + 1 < 2 ^ 16 ->
  exists s', inc_ref_se s i = Some s' /\ INV s' al own (plus1 ownse i) [] hx /\ counts_only s s' /\
             V s' i = set_se (V s i) (v_se (V s i) + 1) /\ forall j, j <> i -> V s' j = V s j.
Proof.
  intros I Hi Hb. pose proof (al_range _ _ _ _ _ _ _ I Hi) as Hr.
  destruct (al_jitc _ _ _ _ _ _ I Hi) as (J & R).
  unfold inc_ref_se. destruct (N.eqb_spec i 0); [lia|]. rewrite J. cbn [bind].
  unfold u16. rewrite N.mod_small by lia.
  destruct (vset_counts s i (set_se (V s i) (v_se (V s i) + 1))) as (s' & E & CO & Ei & Ej);
    [lia|reflexivity|reflexivity|].
  exists s'. split; [exact E|]. split; [|split; [exact CO|]; split; auto].
  eapply INV_counts; eauto. rewrite (co_len _ _ CO).
  refine (cnts_set _ _ _ _ _ _ _ _ _ _ i (I_cnt _ _ _ _ _ _ I) Hi _ Ej _ _ _ _ _ _ _).
  - rewrite Ei. reflexivity.
  - reflexivity.
  - intros j Hn Hj. unfold plus1. destruct (N.eqb_spec j i); [congruence|lia].
  - rewrite Ei. reflexivity.
  - rewrite Ei. cbn. unfold plus1. rewrite N.eqb_refl. lia.
  - constructor.
  - intros; reflexivity.
  - rewrite Ei. cbn. split; [easy|]. lia.
Qed.

Lemma inc_refs_ok ds : forall s al own ownse hx,
  INV s al own ownse [] hx -> (forall d, In d ds -> d = 0 \/ al d = true) ->
  (forall d, In d ds -> own d + N.of_nat (length ds) + 4 * sz s + 1 < 2 ^ 32) ->
  exists s', inc_refs s ds = Some s' /\ INV s' al (plusl own ds) ownse [] hx /\ counts_only s s' /\
             (forall j, v_se (V s' j) = v_se (V s j)).
Proof.
  induction ds as [|d r IH]; intros s al own ownse hx I Hd Hb; cbn [inc_refs].
  - exists s. split; [reflexivity|]. split; [|split; [apply counts_only_refl|auto]].
    eapply INV_own; [| |exact I]; auto. intros. unfold plusl. rewrite occ_nil. lia.
  - destruct (Hd d) as [->|Ha]; [now left| |].
    + unfold inc_ref at 1. rewrite N.eqb_refl. cbn [bind].
      destruct (IH s al own ownse hx I) as (s' & E & I' & CO & Q); [intros; apply Hd; now right| |].
      { intros x Hx. specialize (Hb x (or_intror Hx)). cbn [length] in Hb. lia. }
      exists s'. split; [exact E|]. split; auto.
      eapply INV_own; [| |exact I']; auto. intros j Hj. unfold plusl. rewrite occ_cons.
      destruct (N.eqb_spec j 0); [congruence|lia].
    + destruct (inc_ref_ok s al own ownse hx d I Ha) as (s1 & E1 & I1 & CO1 & Ei & Ej).
      { specialize (Hb d (or_introl eq_refl)). lia. }
      rewrite E1. cbn [bind].
      destruct (IH s1 al (plus1 own d) ownse hx I1) as (s' & E & I' & CO & Q); [intros; apply Hd; now right| |].
      { intros x Hx. specialize (Hb x (or_intror Hx)). cbn [length] in Hb. unfold sz. rewrite (co_len _ _ CO1).
        fold (sz s). unfold plus1. destruct (x =? d); lia. }
      exists s'. split; [exact E|]. split; [|split].
      * eapply INV_own; [| |exact I']; auto. intros j Hj. unfold plusl, plus1. rewrite occ_cons. lia.
      * eapply counts_only_trans; eauto.
      * intros j. rewrite Q. destruct (N.eq_dec j d) as [->|]; [now rewrite Ei|now rewrite Ej].
Qed.

(** ** Shrinking *)

(** From [s] to [s'] some variables were destroyed and nothing else happened. *)
Record shrinks (s : st) (al : N -> bool) (s' : st) (al' : N -> bool) : Prop := {
  sh_al : forall j, al' j = true -> al j = true;
  sh_core : forall j, al' j = true -> core (V s' j) = core (V s j);
  sh_counter : forall j, v_counter (V s' j) =
     if al j && negb (al' j) then u32 (v_counter (V s j) + 1) else v_counter (V s j);
  sh_len : length (vars s') = length (vars s);
  sh_lvn : forall k i, In (k, i) (lvn s') -> In (k, i) (lvn s);
  sh_lvn' : forall k i, In (k, i) (lvn s) -> al' i = true -> In (k, i) (lvn s');
  sh_heap : forall p c, In (p, c) (heap s') -> In (p, c) (heap s);
  sh_ts : tscope s' = tscope s;
  sh_sctr : sctr s' = sctr s }.

Lemma shrinks_counts s s' al : counts_only s s' -> shrinks s al s' al.
Proof.
  intros C. constructor; try apply C; auto.
  - intros j _. apply C.
  - intros j. rewrite (co_counter _ _ C). now destruct (al j).
  - intros k i. now rewrite (co_lvn _ _ C).
  - intros k i. now rewrite (co_lvn _ _ C).
  - intros p c. now rewrite (co_heap _ _ C).
Qed.
Lemma shrinks_trans s1 a1 s2 a2 s3 a3 : shrinks s1 a1 s2 a2 -> shrinks s2 a2 s3 a3 -> shrinks s1 a1 s3 a3.
Proof.
  intros A B. constructor.
  - intros j Hj. now apply A, B.
  - intros j Hj. rewrite (sh_core _ _ _ _ B j Hj). apply A. now apply B.
  - intros j. rewrite (sh_counter _ _ _ _ B j), (sh_counter _ _ _ _ A j).
    pose proof (sh_al _ _ _ _ A j). pose proof (sh_al _ _ _ _ B j).
    destruct (a1 j), (a2 j), (a3 j); cbn; auto; exfalso; intuition congruence.
  - rewrite (sh_len _ _ _ _ B). apply A.
  - intros k i H. now apply A, B.
  - intros k i H Hi. apply B; auto. apply A; auto. now apply B.
  - intros p c H. now apply A, B.
  - rewrite (sh_ts _ _ _ _ B). apply A.
  - rewrite (sh_sctr _ _ _ _ B). apply A.
Qed.

(** ** Association lists *)
Lemma key_eqb_spec a : forall b, key_eqb a b = true <-> a = b.
Proof.
  induction a as [|x a IH]; intros [|y b]; cbn; split; intros H; try easy.
  - apply andb_true_iff in H as (H1 & H2). apply N.eqb_eq in H1 as ->. now apply IH in H2 as ->.
  - injection H as -> ->. rewrite N.eqb_refl. now apply IH.
Qed.
Lemma find_lvn_in k m i : find_lvn k m = Some i -> In (k, i) m.
Proof.
  induction m as [|(k', i') r IH]; cbn; [easy|]. destruct (key_eqb k' k) eqn:E.
  - apply key_eqb_spec in E as ->. intros [= ->]. auto.
  - auto.
Qed.
Lemma find_lvn_none k m : find_lvn k m = None <-> ~ In k (map fst m).
Proof.
  induction m as [|(k', i') r IH]; cbn; [easy|]. destruct (key_eqb k' k) eqn:E.
  - apply key_eqb_spec in E as ->. split; [easy|]. intros H. exfalso; auto.
  - rewrite IH. split; intros H; [|tauto]. intros [->|]; auto.
    assert (key_eqb k k = true) by now apply key_eqb_spec. congruence.
Qed.
Lemma in_find_lvn k m i : NoDup (map fst m) -> In (k, i) m -> find_lvn k m = Some i.
Proof.
  induction m as [|(k', i') r IH]; cbn; [easy|]. intros Nd [E|H].
  - injection E as -> ->. assert (key_eqb k k = true) by now apply key_eqb_spec. now rewrite H.
  - inversion Nd as [|? ? Hn Nd']; subst. destruct (key_eqb k' k) eqn:E; [|auto].
    apply key_eqb_spec in E as ->. exfalso. apply Hn. now apply (in_map fst) in H.
Qed.
Lemma erase_lvn_in k m i j : In (i, j) (erase_lvn k m) -> In (i, j) m.
Proof.
  induction m as [|(k', i') r IH]; cbn; [easy|]. destruct (key_eqb k' k); cbn; intuition.
Qed.
Lemma erase_lvn_nd k m : NoDup (map fst m) -> NoDup (map fst (erase_lvn k m)).
Proof.
  induction m as [|(k', i') r IH]; cbn; [easy|]. intros Nd. inversion Nd as [|? ? Hn Nd']; subst.
  destruct (key_eqb k' k); cbn; auto. constructor; auto. intros H. apply Hn.
  apply in_map_iff in H as ((a, b) & E & H). cbn in E; subst a. apply erase_lvn_in in H. now apply (in_map fst) in H.
Qed.
Lemma erase_lvn_not k m : NoDup (map fst m) -> ~ In k (map fst (erase_lvn k m)).
Proof.
  induction m as [|(k', i') r IH]; cbn; [easy|]. intros Nd. inversion Nd as [|? ? Hn Nd']; subst.
  destruct (key_eqb k' k) eqn:E.
  - now apply key_eqb_spec in E as ->.
  - cbn. intros [->|H]; [|now apply IH in H]. assert (key_eqb k k = true) by now apply key_eqb_spec. congruence.
Qed.
Lemma erase_lvn_other k m i j : i <> k -> In (i, j) m -> In (i, j) (erase_lvn k m).
Proof.
  induction m as [|(k', i') r IH]; cbn; [easy|]. intros Hn [E|H].
  - injection E as -> ->. destruct (key_eqb i k) eqn:E; [apply key_eqb_spec in E; congruence|now left].
  - destruct (key_eqb k' k); [exact H|right; auto].
Qed.

Lemma find_heap_in p h c : find_heap p h = Some c -> In (p, c) h.
Proof.
  induction h as [|(q, c') r IH]; cbn; [easy|]. destruct (N.eqb_spec q p) as [->|]; [|auto].
  intros [= ->]. auto.
Qed.
Lemma find_heap_none p h : find_heap p h = None <-> ~ In p (map fst h).
Proof.
  induction h as [|(q, c') r IH]; cbn; [easy|]. destruct (N.eqb_spec q p) as [->|].
  - split; [easy|]. intros H; exfalso; auto.
  - rewrite IH. tauto.
Qed.
Lemma in_find_heap p h c : NoDup (map fst h) -> In (p, c) h -> find_heap p h = Some c.
Proof.
  induction h as [|(q, c') r IH]; cbn; [easy|]. intros Nd [E|H].
  - injection E as -> ->. now rewrite N.eqb_refl.
  - inversion Nd as [|? ? Hn Nd']; subst. destruct (N.eqb_spec q p) as [->|]; [|auto].
    exfalso. apply Hn. now apply (in_map fst) in H.
Qed.
Lemma erase_heap_in p h q c : In (q, c) (erase_heap p h) -> In (q, c) h.
Proof.
  induction h as [|(k', i') r IH]; cbn; [easy|]. destruct (k' =? p); cbn; intuition.
Qed.
Lemma erase_heap_nd p h : NoDup (map fst h) -> NoDup (map fst (erase_heap p h)).
Proof.
  induction h as [|(k', i') r IH]; cbn; [easy|]. intros Nd. inversion Nd as [|? ? Hn Nd']; subst.
  destruct (k' =? p); cbn; auto. constructor; auto. intros H. apply Hn.
  apply in_map_iff in H as ((a, b) & E & H). cbn in E; subst a. apply erase_heap_in in H. now apply (in_map fst) in H.
Qed.
Lemma erase_heap_not p h : NoDup (map fst h) -> ~ In p (map fst (erase_heap p h)).
Proof.
  induction h as [|(k', i') r IH]; cbn; [easy|]. intros Nd. inversion Nd as [|? ? Hn Nd']; subst.
  destruct (N.eqb_spec k' p) as [->|]; [exact Hn|]. cbn. intros [->|H]; [congruence|now apply IH in H].
Qed.
Lemma erase_heap_other p h q c : q <> p -> In (q, c) h -> In (q, c) (erase_heap p h).
Proof.
  induction h as [|(k', i') r IH]; cbn; [easy|]. intros Hn [E|H].
  - injection E as -> ->. destruct (N.eqb_spec q p); [congruence|now left].
  - destruct (k' =? p); [exact H|right; auto].
Qed.

(** ** Decrement of an operand *)
Lemma dec_dep_ok s al own ownse todo hx d :
  INV s al (plus1 own d) ownse todo hx ->
  exists s' zs, dec_dep s d = Some (s', zs) /\ INV s' al own ownse (zs ++ todo) hx /\ counts_only s s'.
Proof.
  intros I. unfold dec_dep. destruct (N.eqb_spec d 0) as [->|Hd].
  - exists s, []. split; [reflexivity|]. split; [|apply counts_only_refl].
    eapply INV_own; [| |exact I]; auto. intros j Hj. unfold plus1. destruct (N.eqb_spec j 0); [congruence|lia].
  - pose proof (I_cnt _ _ _ _ _ _ I) as C.
    destruct (al d) eqn:Ha.
    2: { destruct (c_own0 _ _ _ _ _ _ C d Hd Ha) as (E & _). unfold plus1 in E. rewrite N.eqb_refl in E. lia. }
    pose proof (al_range _ _ _ _ _ _ _ I Ha). rewrite vget_V by lia. cbn [bind].
    pose proof (c_rc _ _ _ _ _ _ C d Ha) as Erc. unfold plus1 in Erc. rewrite N.eqb_refl in Erc.
    destruct (N.eqb_spec (v_rc (V s d)) 0); [lia|].
    destruct (vset_counts s d (set_rc (V s d) (v_rc (V s d) - 1))) as (s' & E & CO & Ei & Ej);
      [lia|reflexivity|reflexivity|].
    rewrite E. cbn [bind].
    exists s', (if referenced (set_rc (V s d) (v_rc (V s d) - 1)) then [] else [d]).
    split; [reflexivity|]. split; [|exact CO].
    assert (NT : ~ In d todo) by (intros T; destruct (c_todo _ _ _ _ _ _ C d T); lia).
    assert (Q : In d ((if referenced (set_rc (V s d) (v_rc (V s d) - 1)) then [] else [d]) ++ todo) <->
               v_rc (V s' d) = 0 /\ v_se (V s' d) = 0).
    { rewrite Ei. unfold referenced. cbn. destruct (N.ltb_spec 0 (v_rc (V s d) - 1)); cbn.
      { split; [tauto|lia]. }
      destruct (N.ltb_spec 0 (v_se (V s d))); cbn; [split; [tauto|lia]|].
      split; [lia|tauto]. }
    eapply INV_counts; eauto. rewrite (co_len _ _ CO).
    refine (cnts_set _ _ _ _ _ _ _ _ _ _ d C Ha _ Ej _ _ _ _ _ _ Q).
    + now rewrite Ei.
    + intros j Hn Hj. unfold plus1. destruct (N.eqb_spec j d); [congruence|lia].
    + reflexivity.
    + rewrite Ei. cbn. unfold plus1. rewrite N.eqb_refl. lia.
    + now rewrite Ei.
    + destruct (referenced _); cbn; [apply C|]. constructor; [exact NT|apply C].
    + intros j Hj. destruct (referenced _); cbn; [reflexivity|]. intuition congruence.
Qed.

Lemma dec_dep_se_ok s al own ownse todo hx d :
  INV s al own (plus1 ownse d) todo hx ->
  exists s' zs, dec_dep_se s d = Some (s', zs) /\ INV s' al own ownse (zs ++ todo) hx /\ counts_only s s'.
Proof.
  intros I. unfold dec_dep_se. destruct (N.eqb_spec d 0) as [->|Hd].
  - exists s, []. split; [reflexivity|]. split; [|apply counts_only_refl].
    eapply INV_own; [| |exact I]; auto. intros j Hj. unfold plus1. destruct (N.eqb_spec j 0); [congruence|lia].
  - pose proof (I_cnt _ _ _ _ _ _ I) as C.
    destruct (al d) eqn:Ha.
    2: { destruct (c_own0 _ _ _ _ _ _ C d Hd Ha) as (_ & E). unfold plus1 in E. rewrite N.eqb_refl in E. lia. }
    pose proof (al_range _ _ _ _ _ _ _ I Ha). rewrite vget_V by lia. cbn [bind].
    pose proof (c_se _ _ _ _ _ _ C d Ha) as Erc. unfold plus1 in Erc. rewrite N.eqb_refl in Erc.
    destruct (N.eqb_spec (v_se (V s d)) 0); [lia|].
    destruct (vset_counts s d (set_se (V s d) (v_se (V s d) - 1))) as (s' & E & CO & Ei & Ej);
      [lia|reflexivity|reflexivity|].
    rewrite E. cbn [bind].
    exists s', (if referenced (set_se (V s d) (v_se (V s d) - 1)) then [] else [d]).
    split; [reflexivity|]. split; [|exact CO].
    assert (NT : ~ In d todo) by (intros T; destruct (c_todo _ _ _ _ _ _ C d T); lia).
    assert (Q : In d ((if referenced (set_se (V s d) (v_se (V s d) - 1)) then [] else [d]) ++ todo) <->
               v_rc (V s' d) = 0 /\ v_se (V s' d) = 0).
    { rewrite Ei. unfold referenced. cbn. destruct (N.ltb_spec 0 (v_rc (V s d))); cbn.
      { split; [tauto|lia]. }
      destruct (N.ltb_spec 0 (v_se (V s d) - 1)); cbn; [split; [tauto|lia]|].
      split; [lia|tauto]. }
    eapply INV_counts; eauto. rewrite (co_len _ _ CO).
    refine (cnts_set _ _ _ _ _ _ _ _ _ _ d C Ha _ Ej _ _ _ _ _ _ Q).
    + now rewrite Ei.
    + reflexivity.
    + intros j Hn Hj. unfold plus1. destruct (N.eqb_spec j d); [congruence|lia].
    + now rewrite Ei.
    + rewrite Ei. cbn. unfold plus1. rewrite N.eqb_refl. lia.
    + destruct (referenced _); cbn; [apply C|]. constructor; [exact NT|apply C].
    + intros j Hj. destruct (referenced _); cbn; [reflexivity|]. intuition congruence.
Qed.

Lemma INV_perm s al own ownse todo todo' hx : Permutation todo todo' ->
  INV s al own ownse todo hx -> INV s al own ownse todo' hx.
Proof. intros P I. destruct I. constructor; auto. eapply cnts_perm; eauto. Qed.

Lemma dec_deps_ok ds : forall s al own ownse todo hx,
  INV s al (plusl own ds) ownse todo hx ->
  exists s' zs, dec_deps s ds = Some (s', zs) /\ INV s' al own ownse (zs ++ todo) hx /\ counts_only s s'.
Proof.
  induction ds as [|d r IH]; intros s al own ownse todo hx I; cbn [dec_deps].
  - exists s, []. split; [reflexivity|]. split; [|apply counts_only_refl].
    eapply INV_own; [| |exact I]; auto. intros j Hj. unfold plusl. rewrite occ_nil. lia.
  - destruct (dec_dep_ok s al (plusl own r) ownse todo hx d) as (s1 & z1 & E1 & I1 & CO1).
    { eapply INV_own; [| |exact I]; auto. intros j Hj. unfold plus1, plusl. rewrite occ_cons. lia. }
    rewrite E1. cbn [bind fst snd].
    destruct (IH s1 al own ownse (z1 ++ todo) hx I1) as (s2 & z2 & E2 & I2 & CO2).
    rewrite E2. cbn [bind fst snd]. exists s2, (z1 ++ z2). split; [reflexivity|]. split.
    + eapply INV_perm; [|exact I2]. rewrite !app_assoc. apply Permutation_app_tail, Permutation_app_comm.
    + eapply counts_only_trans; eauto.
Qed.
