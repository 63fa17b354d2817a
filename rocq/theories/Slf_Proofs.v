(** Proofs about the instance variable of recorded calls *)
From Verif Require Import Base Slf_Model Slf_Spec.

Definition is (a : nat) (x : option nat) : bool := match x with Some b => Nat.eqb b a | None => false end.
Definition cnt (i : nat) (l : list (option nat)) : nat := length (filter (is i) l).
Definition b2n (b : bool) : nat := if b then 1 else 0.
Lemma cnt_cons i x l : cnt i (x :: l) = b2n (is i x) + cnt i l.
Proof. unfold cnt. cbn [filter]. destruct (is i x); reflexivity. Qed.
Lemma cnt_app i l x : cnt i (l ++ [x]) = cnt i l + b2n (is i x).
Proof. induction l as [| y l IH]; cbn [app]; rewrite ?cnt_cons, ?IH; [ unfold cnt; cbn |]; lia. Qed.
Lemma cnt_set i l : forall r x y, nth_error l r = Some y -> cnt i (set_nth r x l) + b2n (is i y) = cnt i l + b2n (is i x).
Proof.
  induction l as [| a l IH]; intros [| r] x y H; cbn in H; try discriminate; cbn [set_nth]; rewrite !cnt_cons.
  - injection H as ->. lia.
  - specialize (IH r x y H). lia.
Qed.
Lemma cnt_pos i l r : nth_error l r = Some (Some i) -> cnt i l <> 0.
Proof. intro H. pose proof (cnt_set i l r None _ H) as E. cbn [is b2n] in E. rewrite Nat.eqb_refl in E. cbn in E. lia. Qed.
Lemma cnt_two i l r p : nth_error l r = Some (Some i) -> nth_error l p = Some (Some i) -> p <> r -> 2 <= cnt i l.
Proof.
  intros H H' N. pose proof (cnt_set i l r None _ H) as E. cbn [is b2n] in E. rewrite Nat.eqb_refl in E. cbn in E.
  assert (cnt i (set_nth r None l) <> 0); [| lia ]. apply (cnt_pos i _ p). rewrite nth_error_set_nth_neq by congruence. exact H'.
Qed.
Lemma cnt_ex i l : cnt i l <> 0 -> exists r, nth_error l r = Some (Some i).
Proof.
  induction l as [| x l IH]; [ now intros [] |]. rewrite cnt_cons. intro H. destruct x as [j |]; cbn [is] in H.
  - destruct (Nat.eqb_spec j i) as [-> | Hn]; [ now exists 0 |]. destruct IH as (r & E); [ cbn in H; exact H | now exists (S r) ].
  - destruct IH as (r & E); [ exact H | now exists (S r) ].
Qed.
Lemma nth_app_new {A} (l : list A) x p : nth_error (l ++ [x]) p = if Nat.eqb p (length l) then Some x else nth_error l p.
Proof.
  destruct (Nat.eqb_spec p (length l)) as [-> | Hn].
  - rewrite nth_error_app2 by lia. now rewrite Nat.sub_diag.
  - destruct (Nat.lt_ge_cases p (length l)) as [Hl | Hl]; [ now rewrite nth_error_app1 |].
    rewrite nth_error_app2 by lia. destruct (p - length l) as [| q] eqn:E; [ lia |]. cbn.
    rewrite (proj2 (nth_error_None l p)) by lia. now destruct q.
Qed.
Lemma set_last {A} (l : list A) x y : set_nth (length l) x (l ++ [y]) = l ++ [x].
Proof. induction l as [| a l IH]; cbn; [ reflexivity | now f_equal ]. Qed.
Lemma upd_eq f i x : upd f i x i = x.
Proof. unfold upd. now rewrite Nat.eqb_refl. Qed.
Lemma upd_neq f i x j : j <> i -> upd f i x j = f j.
Proof. unfold upd. intro. destruct (Nat.eqb_spec j i); congruence. Qed.

(** Owners [l] of variables, and what they stand for *)
Definition link (V : nat -> option var) (x y : option (option nat)) : Prop :=
  match x, y with
  | None, None | Some None, Some None => True
  | Some (Some i), Some (Some a) => exists v, V i = Some v /\ v_id v = a
  | _, _ => False
  end.
Record owned (V : nat -> option var) (n : nat) (l m : list (option nat)) (w : list what) : Prop := {
  o_link : forall p, link V (nth_error l p) (nth_error m p);
  o_rc : forall i v, V i = Some v -> v_rc v = N.of_nat (cnt i l) /\ cnt i l <> 0;
  o_what : forall i v, V i = Some v -> nth_error w (v_id v) = Some (v_what v);
  o_inj : forall i j v u, V i = Some v -> V j = Some u -> v_id v = v_id u -> i = j;
  o_ctr : n = length w
}.
Lemma link_len V l m : (forall r, link V (nth_error l r) (nth_error m r)) -> length l = length m.
Proof.
  revert m. induction l as [| x l IH]; intros [| y m] H; [ reflexivity | specialize (H 0); cbn in H; destruct y; contradiction |
    specialize (H 0); cbn in H; destruct x; contradiction |]. cbn. f_equal. apply IH. intro r. exact (H (S r)).
Qed.
Lemma owned_at V n l m w p i : owned V n l m w -> nth_error l p = Some (Some i) ->
  exists v, V i = Some v /\ nth_error m p = Some (Some (v_id v)).
Proof.
  intros H E. pose proof (o_link _ _ _ _ _ H p) as HL. rewrite E in HL. destruct (nth_error m p) as [[a |] |]; cbn in HL; try contradiction.
  destruct HL as (v & Hv & <-). exists v. auto.
Qed.

Lemma owned_nil V n l m w : owned V n l m w -> owned V n (l ++ [None]) (m ++ [None]) w.
Proof.
  intro H. pose proof (link_len _ _ _ (o_link _ _ _ _ _ H)) as El. constructor.
  - intro p. rewrite !nth_app_new, El. destruct (Nat.eqb p (length m)); [ exact Logic.I | exact (o_link _ _ _ _ _ H p) ].
  - intros i v Hv. rewrite cnt_app. cbn [is b2n]. rewrite Nat.add_0_r. exact (o_rc _ _ _ _ _ H i v Hv).
  - exact (o_what _ _ _ _ _ H).
  - exact (o_inj _ _ _ _ _ H).
  - exact (o_ctr _ _ _ _ _ H).
Qed.
Lemma owned_drop V n l m w p i v : owned V n l m w -> nth_error l p = Some (Some i) -> V i = Some v ->
  owned (upd V i (if N.eqb (v_rc v - 1) 0 then None else Some (with_rc v (v_rc v - 1)))) n (set_nth p None l) (set_nth p None m) w.
Proof.
  intros H E Hv. destruct (owned_at _ _ _ _ _ p i H E) as (v' & Hv' & Em). assert (v' = v) by congruence. subst v'. clear Hv'.
  destruct (o_rc _ _ _ _ _ H i v Hv) as (Hrc & Hpos).
  pose proof (cnt_set i l p None _ E) as Ec. cbn [is] in Ec. rewrite Nat.eqb_refl in Ec. cbn [b2n] in Ec.
  set (x := if N.eqb (v_rc v - 1) 0 then None else Some (with_rc v (v_rc v - 1))).
  assert (HF : forall q u, upd V i x q = Some u -> exists u', V q = Some u' /\ v_id u' = v_id u /\ v_what u' = v_what u).
  { intros q u Hu. destruct (Nat.eq_dec q i) as [-> | Hn].
    - rewrite upd_eq in Hu. unfold x in Hu. destruct (N.eqb _ 0); [ discriminate |]. injection Hu as <-. exists v. auto.
    - rewrite upd_neq in Hu by exact Hn. exists u. auto. }
  constructor.
  - intro q. destruct (Nat.eq_dec q p) as [-> | Hn].
    + rewrite !nth_error_set_nth_eq by (apply nth_error_Some; congruence). exact Logic.I.
    + rewrite !nth_error_set_nth_neq by congruence. pose proof (o_link _ _ _ _ _ H q) as HL.
      destruct (nth_error l q) as [[k |] |] eqn:Eq, (nth_error m q) as [[a |] |]; cbn in *; auto.
      destruct HL as (u & Hu & Ea). destruct (Nat.eq_dec k i) as [-> | Hk].
      * pose proof (cnt_two i l p q E Eq Hn). rewrite upd_eq. unfold x. destruct (N.eqb_spec (v_rc v - 1) 0); [ lia |].
        eexists. split; [ reflexivity |]. cbn. congruence.
      * exists u. rewrite upd_neq by exact Hk. auto.
  - intros q u Hu. destruct (Nat.eq_dec q i) as [-> | Hn].
    + rewrite upd_eq in Hu. unfold x in Hu. destruct (N.eqb_spec (v_rc v - 1) 0); [ discriminate |]. injection Hu as <-. cbn [with_rc v_rc]. lia.
    + rewrite upd_neq in Hu by exact Hn. pose proof (cnt_set q l p None _ E) as Eq. cbn [is] in Eq.
      destruct (Nat.eqb_spec i q); [ congruence |]. cbn [b2n] in Eq. replace (cnt q (set_nth p None l)) with (cnt q l) by lia.
      exact (o_rc _ _ _ _ _ H q u Hu).
  - intros q u Hu. destruct (HF q u Hu) as (u' & Hu' & <- & <-). exact (o_what _ _ _ _ _ H q u' Hu').
  - intros q k a b Ha Hb Eab. destruct (HF q a Ha) as (a' & Ha' & A1 & _). destruct (HF k b Hb) as (b' & Hb' & B1 & _).
    apply (o_inj _ _ _ _ _ H q k a' b' Ha' Hb'). congruence.
  - exact (o_ctr _ _ _ _ _ H).
Qed.
Lemma owned_inc V n l m w p i v : owned V n l m w -> nth_error l p = Some None -> V i = Some v ->
  owned (upd V i (Some (with_rc v (v_rc v + 1)))) n (set_nth p (Some i) l) (set_nth p (Some (v_id v)) m) w.
Proof.
  intros H E Hv. pose proof (link_len _ _ _ (o_link _ _ _ _ _ H)) as El.
  assert (Hp : p < length l) by (apply nth_error_Some; congruence).
  destruct (o_rc _ _ _ _ _ H i v Hv) as (Hrc & Hpos).
  assert (HF : forall q u, upd V i (Some (with_rc v (v_rc v + 1))) q = Some u -> exists u', V q = Some u' /\ v_id u' = v_id u /\ v_what u' = v_what u).
  { intros q u Hu. destruct (Nat.eq_dec q i) as [-> | Hn].
    - rewrite upd_eq in Hu. injection Hu as <-. exists v. auto.
    - rewrite upd_neq in Hu by exact Hn. exists u. auto. }
  constructor.
  - intro q. destruct (Nat.eq_dec q p) as [-> | Hn].
    + rewrite !nth_error_set_nth_eq by lia. cbn. eexists. rewrite upd_eq. split; reflexivity.
    + rewrite !nth_error_set_nth_neq by congruence. pose proof (o_link _ _ _ _ _ H q) as HL.
      destruct (nth_error l q) as [[k |] |] eqn:Eq, (nth_error m q) as [[a |] |]; cbn in *; auto.
      destruct HL as (u & Hu & Ea). destruct (Nat.eq_dec k i) as [-> | Hk].
      * rewrite upd_eq. eexists. split; [ reflexivity |]. cbn. congruence.
      * exists u. rewrite upd_neq by exact Hk. auto.
  - intros q u Hu. pose proof (cnt_set q l p (Some i) _ E) as Ec. cbn [is b2n] in Ec. destruct (Nat.eq_dec q i) as [-> | Hn].
    + rewrite upd_eq in Hu. injection Hu as <-. rewrite Nat.eqb_refl in Ec. cbn [with_rc v_rc b2n] in *. lia.
    + rewrite upd_neq in Hu by exact Hn. destruct (Nat.eqb_spec i q); [ congruence |]. cbn [b2n] in Ec.
      replace (cnt q (set_nth p (Some i) l)) with (cnt q l) by lia. exact (o_rc _ _ _ _ _ H q u Hu).
  - intros q u Hu. destruct (HF q u Hu) as (u' & Hu' & <- & <-). exact (o_what _ _ _ _ _ H q u' Hu').
  - intros q k a b Ha Hb Eab. destruct (HF q a Ha) as (a' & Ha' & A1 & _). destruct (HF k b Hb) as (b' & Hb' & B1 & _).
    apply (o_inj _ _ _ _ _ H q k a' b' Ha' Hb'). congruence.
  - exact (o_ctr _ _ _ _ _ H).
Qed.
Lemma owned_new V n l m w p i x : owned V n l m w -> nth_error l p = Some None -> V i = None ->
  owned (upd V i (Some {| v_id := n; v_rc := 1; v_what := x |})) (S n) (set_nth p (Some i) l) (set_nth p (Some n) m) (w ++ [x]).
Proof.
  intros H E Hv. pose proof (link_len _ _ _ (o_link _ _ _ _ _ H)) as El. pose proof (o_ctr _ _ _ _ _ H) as Hc.
  assert (Hp : p < length l) by (apply nth_error_Some; congruence).
  assert (Hz : cnt i l = 0).
  { destruct (Nat.eq_dec (cnt i l) 0) as [| Hn]; [ assumption |]. destruct (cnt_ex _ _ Hn) as (q & Eq).
    destruct (owned_at _ _ _ _ _ q i H Eq) as (v & Hv' & _). congruence. }
  assert (HW : forall q u, V q = Some u -> v_id u < length w).
  { intros q u Hu. apply nth_error_Some. rewrite (o_what _ _ _ _ _ H q u Hu). discriminate. }
  constructor.
  - intro q. destruct (Nat.eq_dec q p) as [-> | Hn].
    + rewrite !nth_error_set_nth_eq by lia. cbn. eexists. rewrite upd_eq. split; reflexivity.
    + rewrite !nth_error_set_nth_neq by congruence. pose proof (o_link _ _ _ _ _ H q) as HL.
      destruct (nth_error l q) as [[k |] |] eqn:Eq, (nth_error m q) as [[a |] |]; cbn in *; auto.
      destruct HL as (u & Hu & Ea). exists u. rewrite upd_neq by congruence. auto.
  - intros q u Hu. pose proof (cnt_set q l p (Some i) _ E) as Ec. cbn [is b2n] in Ec. destruct (Nat.eq_dec q i) as [-> | Hn].
    + rewrite upd_eq in Hu. injection Hu as <-. rewrite Nat.eqb_refl in Ec. cbn [v_rc b2n] in *. lia.
    + rewrite upd_neq in Hu by exact Hn. destruct (Nat.eqb_spec i q); [ congruence |]. cbn [b2n] in Ec.
      replace (cnt q (set_nth p (Some i) l)) with (cnt q l) by lia. exact (o_rc _ _ _ _ _ H q u Hu).
  - intros q u Hu. rewrite nth_app_new. destruct (Nat.eq_dec q i) as [-> | Hn].
    + rewrite upd_eq in Hu. injection Hu as <-. cbn. rewrite Hc, Nat.eqb_refl. reflexivity.
    + rewrite upd_neq in Hu by exact Hn. pose proof (HW q u Hu). destruct (Nat.eqb_spec (v_id u) (length w)); [ lia |]. exact (o_what _ _ _ _ _ H q u Hu).
  - intros q k a b Ha Hb Eab. destruct (Nat.eq_dec q i) as [-> | Hq], (Nat.eq_dec k i) as [-> | Hk]; auto.
    + rewrite upd_eq in Ha. injection Ha as <-. rewrite upd_neq in Hb by exact Hk. pose proof (HW k b Hb). cbn in Eab. lia.
    + rewrite upd_eq in Hb. injection Hb as <-. rewrite upd_neq in Ha by exact Hq. pose proof (HW q a Ha). cbn in Eab. lia.
    + rewrite upd_neq in Ha, Hb by assumption. exact (o_inj _ _ _ _ _ H q k a b Ha Hb Eab).
  - rewrite app_length. cbn. lia.
Qed.
(** The same for a new owner *)
Lemma owned_push V n l m w i v : owned V n l m w -> V i = Some v ->
  owned (upd V i (Some (with_rc v (v_rc v + 1)))) n (l ++ [Some i]) (m ++ [Some (v_id v)]) w.
Proof.
  intros H Hv. pose proof (link_len _ _ _ (o_link _ _ _ _ _ H)) as El.
  pose proof (owned_inc _ _ _ _ _ (length l) i v (owned_nil _ _ _ _ _ H)) as G. rewrite set_last, El, set_last, <- El in G.
  apply G; [| exact Hv ]. rewrite nth_app_new, Nat.eqb_refl. reflexivity.
Qed.
Lemma owned_push_new V n l m w i x : owned V n l m w -> V i = None ->
  owned (upd V i (Some {| v_id := n; v_rc := 1; v_what := x |})) (S n) (l ++ [Some i]) (m ++ [Some n]) (w ++ [x]).
Proof.
  intros H Hv. pose proof (link_len _ _ _ (o_link _ _ _ _ _ H)) as El.
  pose proof (owned_new _ _ _ _ _ (length l) i x (owned_nil _ _ _ _ _ H)) as G. rewrite set_last, El, set_last, <- El in G.
  apply G; [| exact Hv ]. rewrite nth_app_new, Nat.eqb_refl. reflexivity.
Qed.

Definition top (c : client) : option nat := option_map snd (c_self c).
Definition top_value (c : client) : N := match c_self c with Some (v, _) => v | None => 0%N end.
Record inv (s : state) (c : client) : Prop := {
  i_own : owned (vars s) (ctr s) (index s :: refs s) (top c :: c_ref c) (c_what c);
  i_value : value s = top_value c;
  i_zero : forall v a, c_self c = Some (v, a) -> v <> 0%N
}.
Lemma inv_initial : inv initial start.
Proof.
  constructor; cbn; try reflexivity; [| discriminate ]. constructor; cbn; try discriminate; try reflexivity.
  intros [| [| p]]; exact Logic.I.
Qed.

Lemma same_owner V n l m w p q : owned V n l m w -> (exists i, nth_error l p = Some (Some i)) -> (q < length l) ->
  (nth_error l p = nth_error l q <-> nth_error m p = nth_error m q).
Proof.
  intros H (i & Ep) Hq. destruct (owned_at _ _ _ _ _ p i H Ep) as (v & Hv & Em). rewrite Ep, Em.
  destruct (nth_error l q) as [[k |] |] eqn:Eq.
  - destruct (owned_at _ _ _ _ _ q k H Eq) as (u & Hu & Emq). rewrite Emq. split; intro E.
    + injection E as ->. congruence.
    + injection E as E. do 2 f_equal. exact (o_inj _ _ _ _ _ H i k v u Hv Hu E).
  - pose proof (o_link _ _ _ _ _ H q) as HL. rewrite Eq in HL. destruct (nth_error m q) as [[a |] |]; cbn in HL; try contradiction.
    split; discriminate.
  - apply nth_error_None in Eq. lia.
Qed.
Lemma shows_ok s c : inv s c -> shows s c.
Proof.
  intros [HO HV HZ].
  assert (ST : forall p, stands s c (match nth_error (index s :: refs s) p with Some x => x | None => None end)
                                  (match nth_error (top c :: c_ref c) p with Some x => x | None => None end)).
  { intro p. pose proof (o_link _ _ _ _ _ HO p) as HL.
    destruct (nth_error (index s :: refs s) p) as [[i |] |], (nth_error (top c :: c_ref c) p) as [[a |] |]; cbn in *; auto.
    destruct HL as (v & Hv & <-). exists v. split; [ exact Hv | exact (o_what _ _ _ _ _ HO i v Hv) ]. }
  pose proof (link_len _ _ _ (o_link _ _ _ _ _ HO)) as El. cbn in El. injection El as El.
  assert (RF : forall r, ref s r <> None -> exists i, nth_error (index s :: refs s) (S r) = Some (Some i)).
  { intros r Hr. unfold ref in Hr. cbn. destruct (nth_error (refs s) r) as [[i |] |]; try congruence. now exists i. }
  assert (AT : forall r, ref s r <> None -> exists a, nth_error (top c :: c_ref c) (S r) = Some (Some a)).
  { intros r Hr. destruct (RF r Hr) as (i & Ei). destruct (owned_at _ _ _ _ _ _ _ HO Ei) as (v & _ & E). now exists (v_id v). }
  unfold shows. split; [ intro r; exact (ST (S r)) |]. split; [| split; [ exact HV |]; split; [ exact (ST 0) |]; split ].
  - intros r q Hr. destruct (Nat.lt_ge_cases q (length (refs s))) as [Hq | Hq].
    + pose proof (same_owner _ _ _ _ _ (S r) (S q) HO (RF r Hr) ltac:(cbn; lia)) as G. cbn in G. unfold ref, at_ref.
      destruct (RF r Hr) as (i & Ei). destruct (AT r Hr) as (a & Ea). cbn in Ei, Ea. rewrite Ei, Ea in *.
      destruct (nth_error (refs s) q) as [x |] eqn:Ex; [| apply nth_error_None in Ex; lia ].
      destruct (nth_error (c_ref c) q) as [y |] eqn:Ey; [| apply nth_error_None in Ey; lia ].
      split; intro Z; subst; f_equal; [ assert (Some (Some a) = Some y) by (now apply G) | assert (Some (Some i) = Some x) by (now apply G) ]; congruence.
    + unfold ref, at_ref. destruct (RF r Hr) as (i & Ei). destruct (AT r Hr) as (a & Ea). cbn in Ei, Ea. rewrite Ei, Ea.
      rewrite (proj2 (nth_error_None (refs s) q)) by lia. rewrite (proj2 (nth_error_None (c_ref c) q)) by lia. split; discriminate.
  - intros r Hr. pose proof (same_owner _ _ _ _ _ (S r) 0 HO (RF r Hr) ltac:(cbn; lia)) as G. cbn in G. unfold ref, at_ref, self. cbn [snd].
    destruct (RF r Hr) as (i & Ei). destruct (AT r Hr) as (a & Ea). cbn in Ei, Ea. rewrite Ei, Ea in *. change (option_map snd (c_self c)) with (top c).
    split; intro Z; [ assert (Some (Some a) = Some (top c)) by (apply G; congruence) | assert (Some (Some i) = Some (index s)) by (apply G; congruence) ]; congruence.
  - intros i v Hv. destruct (cnt_ex i (index s :: refs s)) as (p & E); [ exact (proj2 (o_rc _ _ _ _ _ HO i v Hv)) |].
    destruct p as [| p]; cbn in E; [ left; cbn; congruence | right; exists p; unfold ref; now rewrite E ].
Qed.

Lemma ref_ok s c r : inv s c -> at_ref c r <> None ->
  exists k v, ref s r = Some k /\ nth_error (refs s) r = Some (Some k) /\ vars s k = Some v /\ at_ref c r = Some (v_id v).
Proof.
  intros [HO _ _] HL. pose proof (o_link _ _ _ _ _ HO (S r)) as HR. cbn in HR. unfold at_ref in *. unfold ref.
  destruct (nth_error (c_ref c) r) as [[a |] |]; try congruence.
  destruct (nth_error (refs s) r) as [[i |] |]; cbn in HR; try contradiction. destruct HR as (v & Hv & <-). exists i, v. auto.
Qed.

Lemma release_ok s c : inv s c -> exists s1, release s = Some s1 /\ index s1 = None /\ refs s1 = refs s /\
  owned (vars s1) (ctr s1) (None :: refs s) (None :: c_ref c) (c_what c).
Proof.
  intros [HO _ _]. unfold release. destruct (index s) as [k |] eqn:Ek.
  - destruct (owned_at _ _ _ _ _ 0 k HO eq_refl) as (v & Hv & _). unfold dec_ref. rewrite Hv. cbn [bind].
    eexists. split; [ reflexivity |]. cbn [set_index set_var index refs vars ctr]. split; [ reflexivity |]. split; [ reflexivity |].
    exact (owned_drop _ _ _ _ _ 0 k v HO eq_refl Hv).
  - exists s. split; [ reflexivity |]. split; [ exact Ek |]. split; [ reflexivity |].
    pose proof (o_link _ _ _ _ _ HO 0) as HL. cbn in HL. destruct (top c); [ contradiction | exact HO ].
Qed.

Lemma step_ok s c o : inv s c -> legal c o -> unused s o -> exists s', step s o = Some s' /\ inv s' (effect c o).
Proof.
  intros H HL HU. pose proof (i_own s c H) as HO. pose proof (i_value s c H) as HV. pose proof (i_zero s c H) as HZ.
  destruct o as [i z | r | r | v x i | | v i]; cbn [legal unused step] in *.
  - eexists. split; [ reflexivity |]. constructor; [| exact HV | exact HZ ]. cbn [effect with_new push set_refs var_new vars ctr index refs c_ref c_what top c_self].
    unfold fresh. rewrite <- (o_ctr _ _ _ _ _ HO). exact (owned_push_new _ _ _ _ _ i (Data z) HO HU).
  - destruct (ref_ok s c r H HL) as (k & u & E1 & E2 & Hu & E3). rewrite E1. cbn [bind]. unfold inc_ref. rewrite Hu. cbn [bind].
    eexists. split; [ reflexivity |]. constructor; [| exact HV | exact HZ ]. cbn [effect with_ref push set_refs set_var vars ctr index refs c_ref c_what].
    rewrite E3. exact (owned_push _ _ _ _ _ k u HO Hu).
  - destruct (ref_ok s c r H HL) as (k & u & E1 & E2 & Hu & E3). rewrite E1. cbn [bind]. unfold dec_ref. rewrite Hu. cbn [bind].
    eexists. split; [ reflexivity |]. constructor; [| exact HV | exact HZ ]. cbn [effect set_refs set_var vars ctr index refs c_ref c_what].
    exact (owned_drop _ _ _ _ _ (S r) k u HO E2 Hu).
  - destruct (release_ok s c H) as (s1 & R1 & R2 & R3 & R4).
    destruct x as [r |].
    + destruct (ref_ok s c r H HL) as (k & u & E1 & E2 & Hu & E3). rewrite E1. cbn [bind]. unfold set_self. rewrite R1. cbn [bind].
      destruct (N.eqb_spec v 0) as [-> | Hv].
      * eexists. split; [ reflexivity |]. constructor; cbn; [ rewrite R2, R3; exact R4 | reflexivity | discriminate ].
      * destruct (owned_at _ _ _ _ _ (S r) k R4 E2) as (u1 & Hu1 & Em). unfold inc_ref. cbn [set_value vars]. rewrite Hu1. cbn [bind].
        eexists. split; [ reflexivity |].
        assert (Ee : effect c (SetSelf v (Some r) i) = {| c_ref := c_ref c; c_what := c_what c; c_self := Some (v, v_id u1) |}).
        { unfold effect. cbn in Em. unfold at_ref. rewrite Em. now destruct v. }
        rewrite Ee. constructor; cbn [set_index set_var set_value vars ctr index refs value c_ref c_what c_self top top_value option_map snd].
        -- rewrite R3. exact (owned_inc _ _ _ _ _ 0 k u1 R4 eq_refl Hu1).
        -- reflexivity.
        -- intros v' a E. congruence.
    + unfold set_self. rewrite R1. cbn [bind]. destruct (N.eqb_spec v 0) as [-> | Hv].
      * eexists. split; [ reflexivity |]. constructor; cbn; [ rewrite R2, R3; exact R4 | reflexivity | discriminate ].
      * eexists. split; [ reflexivity |].
        assert (Ee : effect c (SetSelf v None i) = {| c_ref := c_ref c; c_what := c_what c ++ [CallSelf]; c_self := Some (v, fresh c) |}).
        { unfold effect. now destruct v. }
        rewrite Ee. constructor; cbn [set_index var_new set_value vars ctr index refs value c_ref c_what c_self top top_value option_map snd].
        -- rewrite R3. unfold fresh. rewrite <- (o_ctr _ _ _ _ _ R4). exact (owned_new _ _ _ _ _ 0 i CallSelf R4 eq_refl (HU s1 R1)).
        -- reflexivity.
        -- intros v' a E. congruence.
  - cbn [self snd]. destruct (index s) as [k |] eqn:Ek.
    + destruct (owned_at _ _ _ _ _ 0 k HO eq_refl) as (u & Hu & Em). cbn in Em. unfold inc_ref. rewrite Hu. cbn [bind].
      eexists. split; [ reflexivity |]. constructor; [| exact HV | exact HZ ]. cbn [effect with_ref push set_refs set_var vars ctr index refs c_ref c_what].
      rewrite Ek. assert (Et : top c = Some (v_id u)) by congruence. unfold top in Et at 1. rewrite Et.
      exact (owned_push _ _ _ _ _ k u HO Hu).
    + eexists. split; [ reflexivity |]. constructor; [| exact HV | exact HZ ]. cbn [effect with_ref push set_refs vars ctr index refs c_ref c_what].
      pose proof (o_link _ _ _ _ _ HO 0) as HL0. cbn in HL0. change (option_map snd (c_self c)) with (top c).
      change (top (with_ref c (top c))) with (top c). destruct (top c); [ contradiction |]. rewrite Ek. exact (owned_nil _ _ _ _ _ HO).
  - assert (New : exists s', Some (push (var_new s i (Lit v)) (Some i)) = Some s' /\ inv s' (with_new c (Lit v))).
    { eexists. split; [ reflexivity |]. constructor; [| exact HV | exact HZ ]. cbn [with_new push set_refs var_new vars ctr index refs c_ref c_what].
      unfold fresh. rewrite <- (o_ctr _ _ _ _ _ HO). exact (owned_push_new _ _ _ _ _ i (Lit v) HO HU). }
    unfold class. cbn [effect]. rewrite HV. unfold top_value. destruct (c_self c) as [[n a] |] eqn:Es.
    + pose proof (HZ n a eq_refl) as Hn. destruct (N.eqb_spec n v) as [-> | Hd].
      * destruct (N.eqb_spec v 0); [ contradiction |]. cbn [negb andb].
        assert (Et : top c = Some a) by (unfold top; now rewrite Es).
        pose proof (o_link _ _ _ _ _ HO 0) as HL0. cbn in HL0. rewrite Et in HL0. destruct (index s) as [k |] eqn:Ek; [| contradiction ].
        destruct HL0 as (u & Hu & Ea). unfold inc_ref. rewrite Hu. cbn [bind].
        eexists. split; [ reflexivity |]. constructor; [| cbn; unfold top_value; cbn; rewrite Es; rewrite HV; unfold top_value; now rewrite Es | cbn; rewrite Es; exact HZ ].
        cbn [with_ref push set_refs set_var vars ctr index refs c_ref c_what]. rewrite Ek, <- Ea.
        exact (owned_push _ _ _ _ _ k u HO Hu).
      * rewrite andb_false_r. cbn [bind]. exact New.
    + destruct (N.eqb_spec v 0) as [-> | Hv]; cbn [negb andb]; [ exact New |].
      destruct (N.eqb_spec 0 v); [ congruence |]. exact New.
Qed.

Lemma histories_inv l : forall s c, inv s c -> served s c l.
Proof.
  induction l as [| o r IH]; intros s c H; cbn [served]; (split; [ exact (shows_ok s c H) |]); [ exact Logic.I |].
  intros HL HU. destruct (step_ok s c o H HL HU) as (s' & A & B). exists s'. split; [ exact A | exact (IH s' _ B) ].
Qed.
Lemma histories l : served initial start l.
Proof. exact (histories_inv l initial start inv_initial). Qed.
