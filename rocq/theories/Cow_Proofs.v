(** Proofs about copy-on-write *)
From Verif Require Import Base Cow_Model Cow_Spec.

Definition cnt (i : nat) (l : list (option nat)) : nat := length (filter (is i) l).
Definition b2n (b : bool) : nat := if b then 1 else 0.
Lemma cnt_cons i x l : cnt i (x :: l) = b2n (is i x) + cnt i l.
Proof. unfold cnt. cbn [filter]. destruct (is i x); reflexivity. Qed.
Lemma cnt_app i l x : cnt i (l ++ [x]) = cnt i l + b2n (is i x).
Proof. induction l as [| y l IH]; cbn [app]; rewrite ?cnt_cons, ?IH; [ unfold cnt; cbn |]; lia. Qed.
Lemma cnt_set i l : forall r x y, nth_error l r = Some y -> cnt i (set_nth r x l) + b2n (is i y) = cnt i l + b2n (is i x).
Proof.
  induction l as [| a l IH]; intros [| r] x y H; cbn in H; try discriminate; cbn [set_nth]; rewrite !cnt_cons.
  - injection H as ->. lia.
  - specialize (IH r x y H). lia.
Qed.
Lemma cnt_pos i l r : nth_error l r = Some (Some i) -> cnt i l <> 0.
Proof. intro H. pose proof (cnt_set i l r None _ H) as E. cbn [is b2n] in E. rewrite Nat.eqb_refl in E. cbn in E. lia. Qed.
Lemma cnt_two i l r p : nth_error l r = Some (Some i) -> nth_error l p = Some (Some i) -> p <> r -> 2 <= cnt i l.
Proof.
  intros H H' N. pose proof (cnt_set i l r None _ H) as E. cbn [is b2n] in E. rewrite Nat.eqb_refl in E. cbn in E.
  assert (cnt i (set_nth r None l) <> 0); [| lia ]. apply (cnt_pos i _ p). rewrite nth_error_set_nth_neq by congruence. exact H'.
Qed.
Lemma cnt_ex i l : cnt i l <> 0 -> exists r, nth_error l r = Some (Some i).
Proof.
  induction l as [| x l IH]; [ now intros [] |]. rewrite cnt_cons. intro H. destruct x as [j |]; cbn [is] in H.
  - destruct (Nat.eqb_spec j i) as [-> | Hn]; [ now exists 0 |]. destruct IH as (r & E); [ cbn in H; exact H | now exists (S r) ].
  - destruct IH as (r & E); [ exact H | now exists (S r) ].
Qed.

Definition link (V : nat -> option var) (x y : option (option nat)) : Prop :=
  match x, y with
  | None, None | Some None, Some None => True
  | Some (Some i), Some (Some a) => exists v, V i = Some v /\ v_cnt v = a
  | _, _ => False
  end.
Definition stok (n : N) (t : option bool) : Prop :=
  match t with None => n = 0%N | Some true => n = 1%N | Some false => n <> 0%N /\ n <> 1%N end.
Definition hlink (V : nat -> option var) (G : nat -> nat) (L : nat) (x : option (nat * nat)) (y : option nat) : Prop :=
  match x, y with
  | None, None => True
  | Some (i, g), Some a => a < L /\ g <= G i /\ (V i = None -> g < G i) /\
      (forall v, V i = Some v -> (G i = g <-> v_cnt v = a)) /\
      (forall j v, V j = Some v -> v_cnt v = a -> j = i)
  | _, _ => False
  end.
Record inv (s : state) (c : client) : Prop := {
  i_ref : forall r, link (vars s) (nth_error (refs s) r) (nth_error (c_ref c) r);
  i_rc : forall i v, vars s i = Some v -> v_rc v = N.of_nat (cnt i (refs s)) /\ cnt i (refs s) <> 0;
  i_arr : forall i v, vars s i = Some v -> exists t, nth_error (c_arr c) (v_cnt v) = Some (v_data v, t) /\ stok (v_st v) t;
  i_inj : forall i j v w, vars s i = Some v -> vars s j = Some w -> v_cnt v = v_cnt w -> i = j;
  i_hand : Forall2 (hlink (vars s) (gens s) (length (c_arr c))) (hands s) (c_hand c);
  i_ctr : ctr s = length (c_arr c)
}.

Lemma upd_eq f i x : upd f i x i = x.
Proof. unfold upd. now rewrite Nat.eqb_refl. Qed.
Lemma upd_neq f i x j : j <> i -> upd f i x j = f j.
Proof. unfold upd. intro. destruct (Nat.eqb_spec j i); congruence. Qed.

Lemma inv_initial : inv initial start.
Proof.
  constructor; cbn; try discriminate; try reflexivity; [| constructor ]. intros [| r]; exact Logic.I.
Qed.

Lemma ref_in s r i : ref s r = Some i -> nth_error (refs s) r = Some (Some i).
Proof. unfold ref. destruct (nth_error (refs s) r); congruence. Qed.

(** A legal reference *)
Lemma at_ok s c r : inv s c -> at_ref c r <> None ->
  exists i v, ref s r = Some i /\ nth_error (refs s) r = Some (Some i) /\ vars s i = Some v /\
    at_ref c r = Some (v_cnt v) /\ nth_error (c_ref c) r = Some (Some (v_cnt v)).
Proof.
  intros H HL. pose proof (i_ref s c H r) as HR. unfold at_ref in *. unfold ref.
  destruct (nth_error (c_ref c) r) as [[a |] |]; try congruence.
  destruct (nth_error (refs s) r) as [[i |] |]; cbn in HR; try contradiction. destruct HR as (v & Hv & <-).
  exists i, v. auto.
Qed.

Lemma count_eq V i v : forall l m, V i = Some v -> (forall j w, V j = Some w -> v_cnt w = v_cnt v -> j = i) ->
  (forall r, link V (nth_error l r) (nth_error m r)) -> cnt i l = cnt (v_cnt v) m.
Proof.
  induction l as [| x l IH]; intros m Hv HI H.
  - destruct m as [| y m]; [ reflexivity |]. specialize (H 0). cbn in H. destruct y; contradiction.
  - destruct m as [| y m]; [ specialize (H 0); cbn in H; destruct x; contradiction |].
    rewrite !cnt_cons. rewrite (IH m Hv HI) by (intro r; exact (H (S r))). f_equal. specialize (H 0). cbn in H.
    destruct x as [j |], y as [a |]; try contradiction; [| reflexivity ]. destruct H as (w & Hw & <-). cbn [is]. f_equal.
    destruct (Nat.eqb_spec j i) as [-> | Hn].
    + assert (w = v) by congruence. subst. symmetry. apply Nat.eqb_refl.
    + destruct (Nat.eqb_spec (v_cnt w) (v_cnt v)) as [E |]; [| reflexivity ]. exfalso. apply Hn. exact (HI j w Hw E).
Qed.
Lemma owners_eq s c i v : inv s c -> vars s i = Some v -> owners c (v_cnt v) = cnt i (refs s).
Proof.
  intros H Hv. symmetry. apply (count_eq (vars s) i v (refs s) (c_ref c) Hv).
  - intros j w Hw E. exact (i_inj s c H j i w v Hw Hv E).
  - exact (i_ref s c H).
Qed.

Lemma shows_ok s c : inv s c -> shows s c.
Proof.
  intro H. split.
  - intro r. unfold value, contents, ref, at_ref. pose proof (i_ref s c H r) as HR.
    destruct (nth_error (refs s) r) as [[i |] |], (nth_error (c_ref c) r) as [[a |] |]; cbn in HR; try contradiction; try reflexivity.
    destruct HR as (v & Hv & <-). cbn [bind]. rewrite Hv. cbn [bind]. destruct (i_arr s c H i v Hv) as (t & E & _). now rewrite E.
  - intros i v Hv. destruct (cnt_ex i (refs s)) as (r & E); [ exact (proj2 (i_rc s c H i v Hv)) |].
    exists r. unfold ref. now rewrite E.
Qed.

(** Updates that keep counters of variables *)
Definition keeps (V W : nat -> option var) : Prop :=
  forall i, match V i, W i with Some v, Some w => v_cnt w = v_cnt v | None, None => True | _, _ => False end.
Lemma keeps_upd V i v w : V i = Some v -> v_cnt w = v_cnt v -> keeps V (upd V i (Some w)).
Proof.
  intros Hv E j. destruct (Nat.eq_dec j i) as [-> | Hn]; [ rewrite upd_eq, Hv; exact E |].
  rewrite upd_neq by exact Hn. now destruct (V j).
Qed.
Lemma keeps_link V W x y : keeps V W -> link V x y -> link W x y.
Proof.
  intros HK. destruct x as [[i |] |], y as [[a |] |]; cbn; auto. intros (v & Hv & E). specialize (HK i). rewrite Hv in HK.
  destruct (W i) as [w |]; [| contradiction ]. exists w. split; [ reflexivity | congruence ].
Qed.
(** No new counters *)
Definition fewer (V W : nat -> option var) : Prop :=
  forall i w, W i = Some w -> exists v, V i = Some v /\ v_cnt v = v_cnt w.
Lemma keeps_fewer V W : keeps V W -> fewer V W.
Proof. intros HK i w Hw. specialize (HK i). rewrite Hw in HK. destruct (V i) as [v |]; [| contradiction ]. exists v. auto. Qed.
Lemma fewer_inj V W : fewer V W -> (forall i j v w, V i = Some v -> V j = Some w -> v_cnt v = v_cnt w -> i = j) ->
  forall i j v w, W i = Some v -> W j = Some w -> v_cnt v = v_cnt w -> i = j.
Proof.
  intros HF HI i j v w Hv Hw E. destruct (HF i v Hv) as (v' & A & B). destruct (HF j w Hw) as (w' & C & D).
  apply (HI i j v' w' A C). congruence.
Qed.
(** Variables that are freed get another counter *)
Definition moves (V : nat -> option var) (G : nat -> nat) (W : nat -> option var) (G' : nat -> nat) : Prop :=
  forall i, match V i, W i with
            | Some v, Some w => v_cnt w = v_cnt v /\ G' i = G i
            | None, None => G' i = G i
            | Some _, None => G' i = S (G i)
            | None, Some _ => False
            end.
Lemma keeps_moves V W G : keeps V W -> moves V G W G.
Proof. intros HK i. specialize (HK i). destruct (V i), (W i); auto; contradiction. Qed.
Lemma moves_fewer V G W G' : moves V G W G' -> fewer V W.
Proof. intros HM i w Hw. specialize (HM i). rewrite Hw in HM. destruct (V i) as [v |]; [| contradiction ]. exists v. split; [ reflexivity | symmetry; apply HM ]. Qed.
Lemma moves_hand V G W G' L l m : moves V G W G' -> Forall2 (hlink V G L) l m -> Forall2 (hlink W G' L) l m.
Proof.
  intros HM H. induction H as [| x y l m X F IH]; constructor; [| exact IH ].
  destruct x as [[i g] |], y as [a |]; cbn in *; auto. destruct X as (A & B & C & D & E). split; [ exact A |].
  pose proof (HM i) as Hi. repeat split.
  - destruct (V i), (W i); try contradiction; first [ lia | destruct Hi as (_ & Hi); lia ].
  - intro Hn. rewrite Hn in Hi. destruct (V i); [ lia |]. rewrite Hi. auto.
  - intro Eg. rewrite H in Hi. destruct (V i) as [u |]; [| contradiction ]. destruct Hi as (Hi1 & Hi2). rewrite Hi1. apply (D u eq_refl). congruence.
  - intro Eg. rewrite H in Hi. destruct (V i) as [u |]; [| contradiction ]. destruct Hi as (Hi1 & Hi2). rewrite Hi2. apply (D u eq_refl). congruence.
  - intros j w Hw Ew. destruct (moves_fewer _ _ _ _ HM j w Hw) as (v & Hv & Ev). apply (E j v Hv). congruence.
Qed.
Lemma fewer_hand V W G L l m : keeps V W -> Forall2 (hlink V G L) l m -> Forall2 (hlink W G L) l m.
Proof. intro HK. apply moves_hand. now apply keeps_moves. Qed.
(** One more array, whose variable is at an unused index *)
Lemma new_hand V G L l m j w : Forall2 (hlink V G L) l m -> v_cnt w = L -> V j = None ->
  Forall2 (hlink (upd V j (Some w)) G (S L)) l m.
Proof.
  intros H E Hj. induction H as [| x y l m X F IH]; constructor; [| exact IH ].
  destruct x as [[i g] |], y as [a |]; cbn in *; auto. destruct X as (A & B & C & D & Q). split; [ lia |]. split; [ exact B |].
  split; [| split ].
  - intro Hn. apply C. destruct (Nat.eq_dec i j) as [-> | Hd]; [ exact Hj |]. now rewrite upd_neq in Hn by exact Hd.
  - intros v Hv. destruct (Nat.eq_dec i j) as [-> | Hd].
    + rewrite upd_eq in Hv. injection Hv as <-. specialize (C Hj). lia.
    + rewrite upd_neq in Hv by exact Hd. exact (D v Hv).
  - intros k u Hu Eu. destruct (Nat.eq_dec k j) as [-> | Hn].
    + rewrite upd_eq in Hu. injection Hu as <-. lia.
    + rewrite upd_neq in Hu by exact Hn. exact (Q k u Hu Eu).
Qed.

Lemma arr_lt s c i v : inv s c -> vars s i = Some v -> v_cnt v < length (c_arr c).
Proof. intros H Hv. destruct (i_arr s c H i v Hv) as (t & E & _). apply nth_error_Some. congruence. Qed.

Lemma nth_app_new {A} (l : list A) x p : nth_error (l ++ [x]) p = if Nat.eqb p (length l) then Some x else nth_error l p.
Proof.
  destruct (Nat.eqb_spec p (length l)) as [-> | Hn].
  - rewrite nth_error_app2 by lia. now rewrite Nat.sub_diag.
  - destruct (Nat.lt_ge_cases p (length l)) as [Hl | Hl]; [ now rewrite nth_error_app1 |].
    rewrite nth_error_app2 by lia. destruct (p - length l) as [| q] eqn:E; [ lia |]. cbn.
    rewrite (proj2 (nth_error_None l p)) by lia. now destruct q.
Qed.
Lemma link_len V l m : (forall r, link V (nth_error l r) (nth_error m r)) -> length l = length m.
Proof.
  revert m. induction l as [| x l IH]; intros [| y m] H; [ reflexivity | specialize (H 0); cbn in H; destruct y; contradiction |
    specialize (H 0); cbn in H; destruct x; contradiction |]. cbn. f_equal. apply IH. intro r. exact (H (S r)).
Qed.

Lemma step_ok s c o : inv s c -> legal c o -> unused s o ->
  exists s' c', step s o = Some s' /\ effect c o c' /\ inv s' c'.
Proof.
  intros H HL HU. pose proof (link_len _ _ _ (i_ref s c H)) as Hlen.
  destruct o as [i d | r | r | r j k z | r | h]; cbn [legal unused step] in *.
  - (* New *)
    eexists _, _. split; [ reflexivity |]. split; [ apply ef_new |].
    assert (Hz : cnt i (refs s) = 0).
    { destruct (Nat.eq_dec (cnt i (refs s)) 0) as [| Hn]; [ assumption |]. destruct (cnt_ex _ _ Hn) as (p & E).
      pose proof (i_ref s c H p) as HR. rewrite E in HR. destruct (nth_error (c_ref c) p) as [[a |] |]; cbn in HR; try contradiction.
      destruct HR as (v & Hv & _). congruence. }
    constructor; cbn [set_refs var_new vars gens refs hands ctr c_ref c_arr c_hand].
    + intro p. rewrite !nth_app_new, Hlen. destruct (Nat.eqb p (length (c_ref c))).
      * cbn. eexists. rewrite upd_eq. split; [ reflexivity |]. cbn. exact (i_ctr s c H).
      * pose proof (i_ref s c H p) as HR. destruct (nth_error (refs s) p) as [[q |] |], (nth_error (c_ref c) p) as [[a |] |]; cbn in *; auto.
        destruct HR as (v & Hv & E). exists v. rewrite upd_neq by congruence. auto.
    + intros q v Hv. rewrite cnt_app. cbn [is]. destruct (Nat.eq_dec q i) as [-> | Hn].
      * rewrite upd_eq in Hv. injection Hv as <-. rewrite Nat.eqb_refl, Hz. cbn. split; [ reflexivity | lia ].
      * rewrite upd_neq in Hv by exact Hn. destruct (Nat.eqb_spec i q); [ congruence |]. cbn [b2n]. rewrite Nat.add_0_r. exact (i_rc s c H q v Hv).
    + intros q v Hv. destruct (Nat.eq_dec q i) as [-> | Hn].
      * rewrite upd_eq in Hv. injection Hv as <-. exists None. cbn. rewrite (i_ctr s c H), nth_app_new, Nat.eqb_refl. auto.
      * rewrite upd_neq in Hv by exact Hn. destruct (i_arr s c H q v Hv) as (t & E & St). exists t. split; [| exact St ].
        rewrite nth_error_app1; [ exact E | exact (arr_lt s c q v H Hv) ].
    + intros p q v w Hv Hw E. destruct (Nat.eq_dec p i) as [-> | Hp], (Nat.eq_dec q i) as [-> | Hq]; auto.
      * rewrite upd_eq in Hv. injection Hv as <-. rewrite upd_neq in Hw by exact Hq. cbn in E. pose proof (arr_lt s c q w H Hw). pose proof (i_ctr s c H). lia.
      * rewrite upd_eq in Hw. injection Hw as <-. rewrite upd_neq in Hv by exact Hp. cbn in E. pose proof (arr_lt s c p v H Hv). pose proof (i_ctr s c H). lia.
      * rewrite upd_neq in Hv, Hw by assumption. exact (i_inj s c H p q v w Hv Hw E).
    + rewrite app_length. cbn [length]. rewrite Nat.add_1_r. apply new_hand; [ exact (i_hand s c H) | exact (i_ctr s c H) | exact HU ].
    + rewrite app_length. cbn. pose proof (i_ctr s c H). lia.
  - (* Copy *)
    destruct (at_ok s c r H HL) as (i & v & E1 & E2 & Hv & E3 & E4). rewrite E1. cbn [bind]. unfold inc_ref. rewrite Hv. cbn [bind].
    eexists _, _. split; [ reflexivity |]. split; [ apply ef_copy |].
    assert (HK : keeps (vars s) (upd (vars s) i (Some (with_rc v (v_rc v + 1))))) by (apply (keeps_upd _ _ v); auto).
    constructor; cbn [set_refs set_var vars gens refs hands ctr c_ref c_arr c_hand].
    + intro p. rewrite !nth_app_new, Hlen. destruct (Nat.eqb p (length (c_ref c))).
      * rewrite E3. cbn. eexists. rewrite upd_eq. split; reflexivity.
      * exact (keeps_link _ _ _ _ HK (i_ref s c H p)).
    + intros q w Hw. rewrite cnt_app. cbn [is]. destruct (Nat.eq_dec q i) as [-> | Hn].
      * rewrite upd_eq in Hw. injection Hw as <-. rewrite Nat.eqb_refl. cbn. destruct (i_rc s c H i v Hv). lia.
      * rewrite upd_neq in Hw by exact Hn. destruct (Nat.eqb_spec i q); [ congruence |]. cbn [b2n]. rewrite Nat.add_0_r. exact (i_rc s c H q w Hw).
    + intros q w Hw. destruct (Nat.eq_dec q i) as [-> | Hn].
      * rewrite upd_eq in Hw. injection Hw as <-. exact (i_arr s c H i v Hv).
      * rewrite upd_neq in Hw by exact Hn. exact (i_arr s c H q w Hw).
    + exact (fewer_inj _ _ (keeps_fewer _ _ HK) (i_inj s c H)).
    + exact (fewer_hand _ _ _ _ _ _ HK (i_hand s c H)).
    + exact (i_ctr s c H).
  - (* Drop *)
    destruct (at_ok s c r H HL) as (i & v & E1 & E2 & Hv & E3 & E4). rewrite E1. cbn [bind]. destruct (i_rc s c H i v Hv) as (Hrc & Hpos).
    pose proof (cnt_set i (refs s) r None _ E2) as Ec. cbn [is] in Ec. rewrite Nat.eqb_refl in Ec. cbn [b2n] in Ec.
    set (x := if N.eqb (v_rc v - 1) 0 then None else Some (with_rc v (v_rc v - 1))).
    assert (HD : exists s1, dec_ref s i = Some s1 /\ vars s1 = upd (vars s) i x /\ ctr s1 = ctr s /\ refs s1 = refs s /\ hands s1 = hands s /\
      moves (vars s) (gens s) (vars s1) (gens s1)).
    { unfold dec_ref. rewrite Hv. unfold x. destruct (N.eqb (v_rc v - 1) 0); eexists; (split; [ reflexivity |]); cbn [free set_var vars ctr refs hands gens];
        repeat (split; [ reflexivity |]).
      - intro q. destruct (Nat.eq_dec q i) as [-> | Hq]; [ rewrite upd_eq, Hv, Nat.eqb_refl; reflexivity |].
        rewrite upd_neq by exact Hq. destruct (Nat.eqb_spec q i); [ contradiction |]. now destruct (vars s q).
      - apply keeps_moves. now apply (keeps_upd _ _ v). }
    destruct HD as (s1 & HD & D1 & D2 & D3 & D4 & D5). rewrite HD. cbn [bind].
    eexists _, _. split; [ reflexivity |]. split; [ apply ef_drop |].
    assert (HF : fewer (vars s) (upd (vars s) i x)).
    { intros q w Hw. destruct (Nat.eq_dec q i) as [-> | Hn].
      - rewrite upd_eq in Hw. unfold x in Hw. destruct (N.eqb _ 0); [ discriminate |]. injection Hw as <-. exists v. auto.
      - rewrite upd_neq in Hw by exact Hn. exists w. auto. }
    constructor; cbn [set_refs vars gens refs hands ctr c_ref c_arr c_hand]; rewrite ?D1, ?D2, ?D3, ?D4.
    + intro p. destruct (Nat.eq_dec p r) as [-> | Hn].
      * rewrite !nth_error_set_nth_eq by (apply nth_error_Some; congruence). exact Logic.I.
      * rewrite !nth_error_set_nth_neq by congruence. pose proof (i_ref s c H p) as HR.
        destruct (nth_error (refs s) p) as [[q |] |] eqn:Ep, (nth_error (c_ref c) p) as [[a |] |]; cbn in *; auto.
        destruct HR as (w & Hw & E). destruct (Nat.eq_dec q i) as [-> | Hq].
        -- pose proof (cnt_two i (refs s) r p E2 Ep Hn). rewrite upd_eq. unfold x. destruct (N.eqb_spec (v_rc v - 1) 0); [ lia |].
           eexists. split; [ reflexivity |]. cbn. congruence.
        -- exists w. rewrite upd_neq by exact Hq. auto.
    + intros q w Hw. destruct (Nat.eq_dec q i) as [-> | Hn].
      * rewrite upd_eq in Hw. unfold x in Hw. destruct (N.eqb_spec (v_rc v - 1) 0); [ discriminate |]. injection Hw as <-. cbn [with_rc v_rc]. lia.
      * rewrite upd_neq in Hw by exact Hn. pose proof (cnt_set q (refs s) r None _ E2) as Eq. cbn [is] in Eq.
        destruct (Nat.eqb_spec i q); [ congruence |]. cbn [b2n] in Eq. replace (cnt q (set_nth r None (refs s))) with (cnt q (refs s)) by lia.
        exact (i_rc s c H q w Hw).
    + intros q w Hw. destruct (Nat.eq_dec q i) as [-> | Hn].
      * rewrite upd_eq in Hw. unfold x in Hw. destruct (N.eqb _ 0); [ discriminate |]. injection Hw as <-. exact (i_arr s c H i v Hv).
      * rewrite upd_neq in Hw by exact Hn. exact (i_arr s c H q w Hw).
    + exact (fewer_inj _ _ HF (i_inj s c H)).
    + rewrite <- D1. exact (moves_hand _ _ _ _ _ _ _ D5 (i_hand s c H)).
    + exact (i_ctr s c H).
  - (* Scatter *)
    destruct (at_ok s c r H HL) as (i & v & E1 & E2 & Hv & E3 & E4). rewrite E1. cbn [bind].
    destruct (i_rc s c H i v Hv) as (Hrc & Hpos). destruct (i_arr s c H i v Hv) as (t & Ea & St).
    pose proof (owners_eq s c i v H Hv) as Ho.
    assert (Hji : j <> i) by congruence.
    unfold scatter, inc_ref. rewrite Hv. cbn [bind set_var vars]. rewrite upd_eq. cbn [with_rc v_rc v_st v_data].
    destruct (N.ltb_spec 2 (v_rc v + 1)) as [Hlt | Hge]; [ destruct (N.eqb_spec (v_st v) 1) as [Hs1 | Hs1] |]; cbn [andb negb].
    2: {
      (* copy *)
      unfold dec_ref, var_new, set_var. cbn [vars gens ctr refs hands]. rewrite upd_neq by congruence. rewrite upd_eq. cbn [with_rc v_rc v_cnt v_st v_data].
      destruct (N.eqb_spec (v_rc v + 1 - 1) 0) as [Hbad | _]; [ lia |]. cbn [bind vars gens ctr refs hands].
      rewrite upd_neq by exact Hji. rewrite upd_eq. cbn [bind vars gens ctr refs hands].
      rewrite upd_neq by congruence. rewrite upd_eq. cbn [with_rc with_data v_rc v_cnt v_st v_data].
      destruct (N.eqb_spec (v_rc v + 1 - 1 - 1) 0) as [Hbad | _]; [ lia |]. cbn [bind vars gens ctr refs hands].
      eexists _, _. split; [ reflexivity |]. split.
      { eapply ef_other; [ exact E3 | exact Ea | lia |]. intros ->. cbn in St. contradiction. }
      match goal with |- inv (set_refs {| vars := ?W |} _) _ => set (V := W) end.
      assert (V1 : V i = Some (with_rc v (v_rc v - 1))).
      { unfold V. rewrite upd_eq. unfold with_rc. cbn. f_equal. f_equal. lia. }
      assert (V2 : V j = Some {| v_cnt := ctr s; v_rc := 1; v_st := 0; v_data := set_nth k z (v_data v) |}).
      { unfold V. rewrite upd_neq by exact Hji. apply upd_eq. }
      assert (V3 : forall q, q <> i -> q <> j -> V q = vars s q).
      { intros q Hq Hq'. unfold V. rewrite !upd_neq by assumption. reflexivity. }
      clearbody V.
      assert (Hz : cnt j (refs s) = 0).
      { destruct (Nat.eq_dec (cnt j (refs s)) 0) as [| Hn]; [ assumption |]. destruct (cnt_ex _ _ Hn) as (p & E).
        pose proof (i_ref s c H p) as HR. rewrite E in HR. destruct (nth_error (c_ref c) p) as [[a |] |]; cbn in HR; try contradiction.
        destruct HR as (u & Hu & _). congruence. }
      assert (Hcnt : forall q, cnt q (set_nth r (Some j) (refs s)) + b2n (Nat.eqb i q) = cnt q (refs s) + b2n (Nat.eqb j q)).
      { intro q. exact (cnt_set q (refs s) r (Some j) _ E2). }
      assert (Hold : forall q w, V q = Some w -> q <> j -> exists u, vars s q = Some u /\ v_cnt u = v_cnt w /\ v_data u = v_data w /\ v_st u = v_st w).
      { intros q w Hw Hq. destruct (Nat.eq_dec q i) as [-> | Hn].
        - rewrite V1 in Hw. injection Hw as <-. exists v. auto.
        - rewrite V3 in Hw by assumption. exists w. auto. }
      constructor; cbn [set_refs set_var vars gens refs hands ctr c_ref c_arr c_hand].
      + intro p. destruct (Nat.eq_dec p r) as [-> | Hn].
        * rewrite !nth_error_set_nth_eq by (apply nth_error_Some; congruence). cbn. eexists. split; [ exact V2 |]. exact (i_ctr s c H).
        * rewrite !nth_error_set_nth_neq by congruence. pose proof (i_ref s c H p) as HR.
          destruct (nth_error (refs s) p) as [[q |] |], (nth_error (c_ref c) p) as [[a |] |]; cbn in *; auto.
          destruct HR as (w & Hw & E). destruct (Nat.eq_dec q i) as [-> | Hq].
          -- eexists. split; [ exact V1 |]. cbn. congruence.
          -- exists w. rewrite V3 by congruence. auto.
      + intros q w Hw. specialize (Hcnt q). destruct (Nat.eq_dec q i) as [-> | Hn]; [| destruct (Nat.eq_dec q j) as [-> | Hq] ].
        * rewrite V1 in Hw. injection Hw as <-. cbn [with_rc v_rc]. rewrite Nat.eqb_refl in Hcnt.
          destruct (Nat.eqb_spec j i); [ contradiction |]. cbn [b2n] in Hcnt. lia.
        * rewrite V2 in Hw. injection Hw as <-. cbn [v_rc]. rewrite Nat.eqb_refl in Hcnt.
          destruct (Nat.eqb_spec i j); [ congruence |]. cbn [b2n] in Hcnt. lia.
        * rewrite V3 in Hw by assumption. destruct (Nat.eqb_spec i q); [ congruence |]. destruct (Nat.eqb_spec j q); [ congruence |].
          cbn [b2n] in Hcnt. replace (cnt q (set_nth r (Some j) (refs s))) with (cnt q (refs s)) by lia. exact (i_rc s c H q w Hw).
      + intros q w Hw. destruct (Nat.eq_dec q j) as [-> | Hq].
        * rewrite V2 in Hw. injection Hw as <-. exists None. cbn. rewrite (i_ctr s c H), nth_app_new, Nat.eqb_refl. auto.
        * destruct (Hold q w Hw Hq) as (u & Hu & Q1 & Q2 & Q3). destruct (i_arr s c H q u Hu) as (tt & Et & Stt).
          exists tt. rewrite <- Q1, <- Q2, <- Q3. split; [| exact Stt ]. rewrite nth_error_app1; [ exact Et | exact (arr_lt s c q u H Hu) ].
      + assert (Hnew : forall q w, V q = Some w -> q <> j -> v_cnt w <> ctr s).
        { intros q w Hw Hq. destruct (Hold q w Hw Hq) as (u & Hu & Q1 & _). pose proof (arr_lt s c q u H Hu). pose proof (i_ctr s c H). lia. }
        intros p q a b Ha Hb E. destruct (Nat.eq_dec p j) as [-> | Hp], (Nat.eq_dec q j) as [-> | Hq]; auto.
        * rewrite V2 in Ha. injection Ha as <-. cbn in E. exfalso. apply (Hnew q b Hb Hq). congruence.
        * rewrite V2 in Hb. injection Hb as <-. cbn in E. exfalso. apply (Hnew p a Ha Hp). congruence.
        * destruct (Hold p a Ha Hp) as (u & Hu & Q1 & _). destruct (Hold q b Hb Hq) as (w & Hw & Q2 & _).
          apply (i_inj s c H p q u w Hu Hw). congruence.
      + rewrite app_length. cbn [length]. rewrite Nat.add_1_r.
        pose proof (new_hand _ _ _ _ _ j {| v_cnt := ctr s; v_rc := 1; v_st := 0; v_data := set_nth k z (v_data v) |} (i_hand s c H) (i_ctr s c H) HU) as HH.
        apply (fewer_hand (upd (vars s) j (Some {| v_cnt := ctr s; v_rc := 1; v_st := 0; v_data := set_nth k z (v_data v) |}))); [| exact HH ].
        intro q. destruct (Nat.eq_dec q j) as [-> | Hq]; [ rewrite upd_eq, V2; reflexivity |]. rewrite upd_neq by exact Hq.
        destruct (Nat.eq_dec q i) as [-> | Hn]; [ rewrite Hv, V1; reflexivity |]. rewrite V3 by assumption. now destruct (vars s q).
      + rewrite app_length. cbn. pose proof (i_ctr s c H). lia. }
    (* in place *)
    all: unfold dec_ref, set_var; cbn [bind vars gens ctr refs hands]; rewrite upd_eq; cbn [bind vars gens ctr refs hands]; rewrite upd_eq;
      cbn [with_rc with_data v_rc v_cnt v_st v_data].
    all: destruct (N.eqb_spec (v_rc v + 1 - 1) 0) as [Hbad | _]; [ lia |]; cbn [bind vars gens ctr refs hands].
    all: eexists _, _; (split; [ reflexivity |]).
    all: split; [ eapply ef_same; [ exact E3 | exact Ea |] |].
    1: { right. destruct t as [[] |]; cbn in St; [ reflexivity | lia | lia ]. }
    2: { left. lia. }
    all: match goal with |- inv (set_refs {| vars := ?W |} _) _ => set (V := W) end.
    all: assert (V1 : V i = Some (with_data v (set_nth k z (v_data v)))) by (unfold V; rewrite upd_eq; unfold with_data, with_rc; cbn; do 2 f_equal; lia).
    all: assert (V3 : forall q, q <> i -> V q = vars s q) by (intros q Hq; unfold V; rewrite !upd_neq by assumption; reflexivity).
    all: clearbody V.
    all: assert (HK : keeps (vars s) V) by (intro q; destruct (Nat.eq_dec q i) as [-> | Hq]; [ rewrite V1, Hv; reflexivity | rewrite V3 by exact Hq; now destruct (vars s q) ]).
    all: assert (Hset : set_nth r (Some i) (refs s) = refs s) by (clear - E2; revert r E2; induction (refs s) as [| x l IH]; intros [| r] E2; cbn in *; try discriminate; [ congruence | f_equal; auto ]).
    all: constructor; cbn [set_refs set_var vars gens refs hands ctr c_ref c_arr c_hand]; rewrite ?Hset.
    all: try (intro p; exact (keeps_link _ _ _ _ HK (i_ref s c H p))).
    all: try exact (fewer_inj _ _ (keeps_fewer _ _ HK) (i_inj s c H)).
    all: try (rewrite set_nth_length; first [ exact (i_ctr s c H) | exact (fewer_hand _ _ _ _ _ _ HK (i_hand s c H)) ]).
    all: try (intros q w Hw; destruct (Nat.eq_dec q i) as [-> | Hq];
      [ rewrite V1 in Hw; injection Hw as <-; first [ exact (i_rc s c H i v Hv) |
          exists t; cbn [with_data v_cnt v_data v_st]; rewrite nth_error_set_nth_eq by exact (arr_lt s c i v H Hv); split; [ reflexivity | exact St ] ]
      | rewrite V3 in Hw by exact Hq; first [ exact (i_rc s c H q w Hw) |
          rewrite nth_error_set_nth_neq by (intro E; apply Hq; symmetry; exact (i_inj s c H i q v w Hv Hw E)); exact (i_arr s c H q w Hw) ] ]).
  - (* Stash *)
    destruct HL as (a & Ha & Hlt). assert (HL : at_ref c r <> None) by congruence.
    destruct (at_ok s c r H HL) as (i & v & E1 & E2 & Hv & E3 & E4). rewrite E1. cbn [bind]. unfold stash_ref. rewrite Hv.
    assert (a = v_cnt v) by congruence. subst a.
    destruct (i_rc s c H i v Hv) as (Hrc & Hpos). destruct (i_arr s c H i v Hv) as (t & Ea & St).
    pose proof (owners_eq s c i v H Hv) as Ho.
    destruct (N.eqb_spec (v_st v) 0) as [Hz | Hz]; cbn [negb bind].
    + assert (t = None) by (destruct t as [[] |]; cbn in St; [ lia | lia | reflexivity ]). subst t.
      eexists _, _. split; [ reflexivity |]. split; [ eapply ef_stash; eauto |].
      assert (HK : keeps (vars s) (upd (vars s) i (Some (with_st v (v_rc v mod 2 ^ 16))))) by (apply (keeps_upd _ _ v); auto).
      constructor; cbn [add_hand set_var vars gens refs hands ctr c_ref c_arr c_hand].
      * intro p. exact (keeps_link _ _ _ _ HK (i_ref s c H p)).
      * intros q w Hw. destruct (Nat.eq_dec q i) as [-> | Hq].
        -- rewrite upd_eq in Hw. injection Hw as <-. exact (i_rc s c H i v Hv).
        -- rewrite upd_neq in Hw by exact Hq. exact (i_rc s c H q w Hw).
      * intros q w Hw. destruct (Nat.eq_dec q i) as [-> | Hq].
        -- rewrite upd_eq in Hw. injection Hw as <-. cbn [with_st v_cnt v_data v_st].
           rewrite nth_error_set_nth_eq by exact (arr_lt s c i v H Hv). eexists. split; [ reflexivity |].
           rewrite N.mod_small by lia. destruct (Nat.eqb_spec (owners c (v_cnt v)) 1); cbn; lia.
        -- rewrite upd_neq in Hw by exact Hq.
           rewrite nth_error_set_nth_neq by (intro E; apply Hq; symmetry; exact (i_inj s c H i q v w Hv Hw E)). exact (i_arr s c H q w Hw).
      * exact (fewer_inj _ _ (keeps_fewer _ _ HK) (i_inj s c H)).
      * rewrite set_nth_length. apply Forall2_app; [ exact (fewer_hand _ _ _ _ _ _ HK (i_hand s c H)) |].
        constructor; [| constructor ]. cbn. split; [ exact (arr_lt s c i v H Hv) |]. split; [ lia |]. rewrite upd_eq.
        split; [ discriminate |]. split; [ intros u Hu; injection Hu as <-; now cbn |].
        intros j w Hw E. apply (fewer_inj _ _ (keeps_fewer _ _ HK) (i_inj s c H) j i w _ Hw (upd_eq _ _ _)). exact E.
      * rewrite set_nth_length. exact (i_ctr s c H).
    + destruct t as [b |]; [| cbn in St; contradiction ]. eexists _, _. split; [ reflexivity |]. split; [ eapply ef_nested; eauto |].
      destruct H as [A1 A2 A3 A4 A5 A6]. constructor; cbn [add_hand vars gens refs hands ctr c_ref c_arr c_hand]; auto.
      apply Forall2_app; [ exact A5 |]. constructor; [ exact Logic.I | constructor ].
  - (* Unstash *)
    assert (G : exists x y, nth_error (hands s) h = Some x /\ nth_error (c_hand c) h = Some y /\ hlink (vars s) (gens s) (length (c_arr c)) x y).
    { pose proof (i_hand s c H) as HH. clear - HH HL. revert h HL. induction HH as [| x y l m X F IH]; intros h HL; [ cbn in HL; lia |].
      destruct h as [| h]; [ exists x, y; auto |]. cbn in *. apply IH. lia. }
    destruct G as (x & y & Ex & Ey & HX). rewrite Ex. destruct x as [[i n] |], y as [a |]; cbn in HX; try contradiction.
    2: { eexists _, _. split; [ reflexivity |]. split; [ now apply ef_nothing | exact H ]. }
    destruct HX as (Hlt & Hg & Hfree & Hgen & Hi). destruct (nth_error (c_arr c) a) as [[d t] |] eqn:Ea; [| apply nth_error_None in Ea; lia ].
    eexists _, _. split; [ reflexivity |]. split; [ eapply ef_unstash; eauto |]. cbn [unstash_ref].
    (* the variable, if it exists, is the one with the handle *)
    assert (G : forall V, (forall q, q <> i -> V q = vars s q) -> keeps (vars s) V ->
      (forall v, vars s i = Some v -> v_cnt v = a -> V i = Some (with_st v 0)) ->
      (forall v, vars s i = Some v -> v_cnt v <> a -> V i = Some v) ->
      inv {| vars := V; gens := gens s; ctr := ctr s; refs := refs s; hands := hands s |}
          {| c_ref := c_ref c; c_arr := set_nth a (d, None) (c_arr c); c_hand := c_hand c |}).
    { intros V V1 HK V2 V3.
      assert (HO : forall q w, V q = Some w -> exists u, vars s q = Some u /\ v_cnt u = v_cnt w /\ v_rc u = v_rc w /\ v_data u = v_data w /\
        (if Nat.eqb (v_cnt u) a then v_st w = 0%N else v_st w = v_st u)).
      { intros q w Hw. destruct (keeps_fewer _ _ HK q w Hw) as (u & Hu & Eu). exists u. split; [ exact Hu |]. split; [ exact Eu |].
        destruct (Nat.eqb_spec (v_cnt u) a) as [E | E].
        - assert (q = i) by exact (Hi q u Hu E). subst q. rewrite (V2 u Hu E) in Hw. injection Hw as <-. auto.
        - destruct (Nat.eq_dec q i) as [-> | Hq]; [ rewrite (V3 u Hu E) in Hw | rewrite V1 in Hw by exact Hq; rewrite Hu in Hw ]; injection Hw as <-; auto. }
      constructor; cbn [vars gens refs hands ctr c_ref c_arr c_hand].
      - intro p. exact (keeps_link _ _ _ _ HK (i_ref s c H p)).
      - intros q w Hw. destruct (HO q w Hw) as (u & Hu & _ & Er & _). rewrite <- Er. exact (i_rc s c H q u Hu).
      - intros q w Hw. destruct (HO q w Hw) as (u & Hu & E1 & _ & E2 & E3). destruct (i_arr s c H q u Hu) as (tt & Et & Stt).
        rewrite <- E1, <- E2. destruct (Nat.eqb_spec (v_cnt u) a) as [E | E].
        + rewrite E in *. rewrite nth_error_set_nth_eq by exact Hlt. exists None. split; [ congruence | exact E3 ].
        + rewrite nth_error_set_nth_neq by congruence. exists tt. split; [ exact Et | now rewrite E3 ].
      - exact (fewer_inj _ _ (keeps_fewer _ _ HK) (i_inj s c H)).
      - rewrite set_nth_length. exact (fewer_hand _ _ _ _ _ _ HK (i_hand s c H)).
      - rewrite set_nth_length. exact (i_ctr s c H). }
    assert (HR : forall V, keeps V V) by (intros V q; now destruct (V q)).
    destruct (Nat.eqb_spec (gens s i) n) as [Eg | Eg]; [ destruct (vars s i) as [v |] eqn:Hv |].
    + apply G.
      * intros q Hq. now apply upd_neq.
      * now apply (keeps_upd _ _ v).
      * intros u Hu _. assert (u = v) by congruence. subst. apply upd_eq.
      * intros u Hu Hn. assert (u = v) by congruence. subst u. exfalso. apply Hn. now apply (Hgen v eq_refl).
    + specialize (Hfree eq_refl). lia.
    + destruct s as [V0 g0 k0 r0 h0]. cbn in *. apply G; auto. intros u Hu Eu. exfalso. apply Eg. now apply (Hgen u Hu).
Qed.

Lemma histories_inv l : forall s c, inv s c -> served s c l.
Proof.
  induction l as [| o r IH]; intros s c H; cbn [served]; (split; [ exact (shows_ok s c H) |]); [ exact Logic.I |].
  intros HL HU. destruct (step_ok s c o H HL HU) as (s' & c' & A & B & C).
  exists s', c'. split; [ exact A |]. split; [ exact B | exact (IH s' c' C) ].
Qed.
Lemma histories l : served initial start l.
Proof. exact (histories_inv l initial start inv_initial). Qed.

(** Many references *)
Lemma run_app l : forall s m, run s (l ++ m) = let? s' := run s l in run s' m.
Proof. induction l as [| o l IH]; intros s m; cbn [app run]; [ reflexivity |]. destruct (step s o); cbn [bind]; [ apply IH | reflexivity ]. Qed.
Lemma run_copies n : forall s v, ref s 0 = Some 0 -> vars s 0 = Some v ->
  exists s', run s (repeat (Copy 0) n) = Some s' /\ vars s' 0 = Some (with_rc v (v_rc v + N.of_nat n)) /\
    refs s' = refs s ++ repeat (Some 0) n.
Proof.
  induction n as [| n IH]; intros s v Hr Hv.
  - exists s. cbn [repeat run]. split; [ reflexivity |]. split; [| now rewrite app_nil_r ]. rewrite Hv. destruct v. unfold with_rc. cbn. do 2 f_equal. lia.
  - cbn [repeat run step]. rewrite Hr. cbn [bind]. unfold inc_ref. rewrite Hv. cbn [bind].
    destruct (IH (set_refs (set_var s 0 (Some (with_rc v (v_rc v + 1)))) (refs s ++ [Some 0])) (with_rc v (v_rc v + 1))) as (s' & A & B & C).
    + unfold ref in *. cbn [set_refs refs]. destruct (refs s) as [| x l]; [ discriminate | exact Hr ].
    + apply upd_eq.
    + exists s'. split; [ exact A |]. split.
      * rewrite B. unfold with_rc. cbn. do 2 f_equal. lia.
      * rewrite C. cbn [set_refs refs]. now rewrite <- app_assoc.
Qed.
Lemma width n : n <> 0 -> (N.of_nat (S n) mod 2 ^ 16 = 1)%N ->
  exists s, run initial (New 0 [1; 2]%Z :: repeat (Copy 0) n ++ [Stash 0; Scatter 0 1 0 9]) = Some s /\ value s 1 = Some [9; 2]%Z.
Proof.
  intros Hn Hm. cbn [run step bind]. rewrite run_app.
  destruct (run_copies n (set_refs (var_new initial 0 [1; 2]%Z) [Some 0]) {| v_cnt := 0; v_rc := 1; v_st := 0; v_data := [1; 2]%Z |} eq_refl eq_refl)
    as (s & A & B & C).
  change (run (set_refs (var_new initial 0 [1; 2]%Z) (refs (var_new initial 0 [1; 2]%Z) ++ [Some 0])) (repeat (Copy 0) n)) with
    (run (set_refs (var_new initial 0 [1; 2]%Z) [Some 0]) (repeat (Copy 0) n)). rewrite A. cbn [bind run step].
  destruct n as [| n]; [ contradiction |]. cbn [set_refs refs app repeat] in C. unfold with_rc in B. cbn [v_cnt v_rc v_st v_data] in B.
  replace (1 + N.of_nat (S n))%N with (N.of_nat (S (S n))) in B by lia. set (k := N.of_nat (S (S n))) in *. assert (Hk : k <> 0%N) by (subst k; lia). clearbody k.
  destruct s as [V g c R h]. cbn [vars refs] in B, C. subst R.
  assert (E0 : forall l, ref {| vars := V; gens := g; ctr := c; refs := Some 0 :: l; hands := h |} 0 = Some 0) by reflexivity.
  rewrite E0. cbn [bind]. unfold stash_ref. cbn [vars]. rewrite B. cbn [v_st negb N.eqb bind]. unfold with_st. cbn [v_cnt v_rc v_data].
  rewrite Hm. change (negb (0 =? 0)%N) with false. cbn [bind]. unfold add_hand, set_var. cbn [vars gens ctr refs hands]. unfold ref. cbn [nth_error refs bind].
  unfold scatter, inc_ref, set_var. cbn [vars gens ctr refs hands]. rewrite upd_eq. cbn [bind vars gens ctr refs hands]. rewrite upd_eq.
  unfold with_rc. cbn [v_cnt v_rc v_st v_data]. change (negb (1 =? 1)%N) with false. rewrite andb_false_r. cbn [bind vars gens ctr refs hands]. rewrite upd_eq.
  cbn [bind]. unfold dec_ref, set_var, with_data, with_rc. cbn [vars gens ctr refs hands]. rewrite upd_eq. cbn [v_cnt v_rc v_st v_data].
  destruct (N.eqb_spec (k + 1 - 1) 0) as [Hb | _]; [ lia |]. cbn [bind set_refs set_nth]. eexists. split; [ reflexivity |].
  unfold value, ref. cbn [set_refs refs vars nth_error bind]. rewrite upd_eq. reflexivity.
Qed.
