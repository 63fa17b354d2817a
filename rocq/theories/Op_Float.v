(** Simplifications of floating point operations. *)
From Verif Require Import Base Op_Model Op_Spec Op_Bits Op_Fold Op_Store Op_Proofs Op_Built Op_FSpec.
Local Open Scope N_scope.

Ltac open2 B := unfold B; erewrite with2_eq by eauto; cbn [info2 i_simplify i_literal i_ty i_size v_ty v_size mk2 make_zero set_ty].

Section Float.
Variable fop : kind -> ty -> list ty -> list N -> N.
Notation op2 := (op2 fop).
Notation op3 := (op3 fop).
Notation laws := (laws fop).
Notation fma_laws := (fma_laws fop).
Notation claimed3 := (claimed3 fop).
Definition G2 k t a b := if claimed2 k t a b then Some (op2 k t a b) else None.
Definition G3 t a b c := if claimed3 t a b c then Some (op3 t a b c) else None.
Definition D2 (t : ty) (a b : N) : option N :=
  let r := op2 Div t (type_one t) b in
  if negb (is_nan t a) && negb (is_nan t r) then Some (op2 Mul t a r) else None.

Lemma float_width : forall t, is_float t = true -> type_one t < 2 ^ width t /\ 2 ^ (width t - 1) < 2 ^ width t /\ is_nan t (type_one t) = false /\ is_nan t 0 = false /\ is_nan t (2 ^ (width t - 1)) = false.
Proof. destruct t; try discriminate; intros _; repeat split; vm_compute; reflexivity. Qed.
Lemma fzero_number : forall t z, is_float t = true -> fzero t z = true -> number t z.
Proof.
  intros t z F Z. destruct (float_width t F) as (H1 & H2 & H3 & H4 & H5). unfold fzero in Z. apply orb_prop in Z. destruct Z as [Z|Z]; apply N.eqb_eq in Z; subst z; split; try assumption. lia.
Qed.
Lemma any_zero_float : forall t n d, is_any_zero (mkVar t n d) = true -> exists z, d = Lit z /\ fzero t z = true.
Proof.
  intros t n d H. unfold is_any_zero in H. cbn [v_ty] in H. unfold fzero. apply orb_prop in H. destruct H as [H|H].
  - apply lit_is_desc in H. exists 0. split; [exact H|reflexivity].
  - apply andb_prop in H as [_ H]. apply lit_is_desc in H. eexists. split; [exact H|]. rewrite N.eqb_refl, orb_true_r. reflexivity.
Qed.
Lemma one_float : forall t n d, is_one (mkVar t n d) = true -> d = Lit (type_one t).
Proof. intros t n d H. apply lit_is_desc in H. exact H. Qed.
Lemma wrap_lt : forall t x, wrap t x < 2 ^ width t.
Proof. intros. unfold wrap. apply N.mod_lt. apply N.pow_nonzero. discriminate. Qed.
Lemma claimed2_inv : forall k t a b x, G2 k t a b = Some x -> claimed2 k t a b = true /\ x = op2 k t a b /\ is_nan t a = false /\ is_nan t b = false.
Proof.
  intros k t a b x H. unfold G2 in H. destruct (claimed2 k t a b) eqn:C; [|discriminate]. injection H as <-. split; [reflexivity|]. split; [reflexivity|].
  unfold claimed2 in C. apply andb_prop in C as [C _]. apply andb_prop in C as [A B]. apply negb_true_iff in A, B. auto.
Qed.

Variables (cp fast : bool) (uniq : store -> nat -> bool).
Notation value := (value fop).
Notation wf := (wf fop).
Notation kept := (kept fop).
Notation made := (made fop).
Notation g2 := (g2 fop).
Notation g3 := (g3 fop).

Lemma node2w : forall st a0 a1 t n0 n1 d0 d1 k F, wf st -> get st a0 = Some (mkVar t n0 d0) -> get st a1 = Some (mkVar t n1 d1) -> compat n0 n1 -> is_float t = true ->
  In k [Add; Sub; Mul; Div] -> (forall a b x, F a b = Some x -> x = op2 k t a b) ->
  made kept st (node st k t (N.max n0 n1) [a0; a1]) t (N.max n0 n1) (g2 st a0 a1 F).
Proof.
  intros st a0 a1 t n0 n1 d0 d1 k F W G0 G1 C FL K H.
  eapply made_ext; [eapply (node2 fop uniq st a0 a1 t n0 n1 d0 d1 W G0 G1 C k t (fun a b => Some (op2 k t a b)))|].
  - intros a b _ _. unfold ir. destruct K as [<-|[<-|[<-|[<-|[]]]]]; rewrite FL; reflexivity.
  - intros a b x _ _ E. injection E as <-. apply wrap_lt.
  - intros l x E. apply g2_inv in E as (a & b & V0 & V1 & E). unfold Op_Proofs.g2. rewrite V0, V1. cbn [bind]. f_equal. symmetry. apply H, E.
Qed.

Section Two.
Variables (st : store) (a0 a1 : nat) (t : ty) (n0 n1 : N) (d0 d1 : desc).
Hypothesis W : wf st.
Hypothesis E0 : get st a0 = Some (mkVar t n0 d0).
Hypothesis E1 : get st a1 = Some (mkVar t n1 d1).
Hypothesis C : compat n0 n1.
Hypothesis FL : is_float t = true.
Hypothesis LW : laws t.

Lemma frame_float : forall k ev F alt, In k [Add; Sub; Mul; Div] -> (forall a b x, F a b = Some x -> x = op2 k t a b) ->
  (forall x y, ev t x y = Ok (op2 k t x y)) ->
  (cp = true -> is_literal (mkVar t n0 d0) && is_literal (mkVar t n1 d1) = false -> made kept st alt t (N.max n0 n1) (g2 st a0 a1 F)) ->
  made kept st (if (is_literal (mkVar t n0 d0) || is_literal (mkVar t n1 d1) || Nat.eqb a0 a1) && cp then
      if is_literal (mkVar t n0 d0) && is_literal (mkVar t n1 d1) then
        eval_literal st (mkInfo t (N.max n0 n1) ((is_literal (mkVar t n0 d0) || is_literal (mkVar t n1 d1) || Nat.eqb a0 a1) && cp) (is_literal (mkVar t n0 d0) && is_literal (mkVar t n1 d1)))
          (ev t (lit_of (mkVar t n0 d0)) (lit_of (mkVar t n1 d1)))
      else alt
    else node st k t (N.max n0 n1) [a0; a1]) t (N.max n0 n1) (g2 st a0 a1 F).
Proof.
  intros k ev F alt K H EV A.
  destruct ((is_literal (mkVar t n0 d0) || is_literal (mkVar t n1 d1) || Nat.eqb a0 a1) && cp) eqn:Si; [|eapply node2w; eauto]. apply andb_prop in Si as [_ CP].
  destruct (is_literal (mkVar t n0 d0) && is_literal (mkVar t n1 d1)) eqn:Q; [|auto].
  destruct (lits_inv fop st a0 a1 t n0 n1 d0 d1 W E0 E1 Q) as (x & y & -> & -> & X & Y). cbn [lit_of v_desc]. rewrite EV.
  eapply (fold2 fop st a0 a1 t n0 n1 (Lit x) (Lit y) W E0 E1 C F t _ (op2 k t x y)); try reflexivity.
  - intros ->. discriminate.
  - intros a b r A1 B1 E L0 L1 _. rewrite (L0 x eq_refl), (L1 y eq_refl) in E. rewrite wrap_small by apply wrap_lt. apply H, E.
Qed.

Lemma fadd_ok : made kept st (var_add fop cp uniq st a0 a1) t (N.max n0 n1) (g2 st a0 a1 (G2 Add t)).
Proof.
  open2 var_add. apply frame_float.
  - cbn; auto.
  - intros a b x H. now apply claimed2_inv in H.
  - intros x y. unfold eval_arith. rewrite FL. destruct t; try discriminate; reflexivity.
  - intros CP NL. destruct (is_any_zero (mkVar t n0 d0)) eqn:Z0.
    { apply any_zero_float in Z0 as (z & D & Z). eapply right2; eauto. intros a b x A B H U0 U1 UE. apply claimed2_inv in H as (H & -> & NA & NB). rewrite (U0 z D) in *.
      apply (add_l fop t LW); [exact Z|split; assumption|]. unfold claimed2 in H. apply andb_prop in H as [_ H]. rewrite Z in H. cbn [andb] in H. now apply negb_true_iff in H. }
    destruct (is_any_zero (mkVar t n1 d1)) eqn:Z1.
    { apply any_zero_float in Z1 as (z & D & Z). eapply left2; eauto. intros a b x A B H U0 U1 UE. apply claimed2_inv in H as (H & -> & NA & NB). rewrite (U1 z D) in *.
      apply (add_r fop t LW); [exact Z|split; assumption|]. unfold claimed2 in H. apply andb_prop in H as [_ H]. rewrite Z, andb_true_r in H. now apply negb_true_iff in H. }
    eapply node2w; eauto; [cbn; auto|]. intros a b x H. now apply claimed2_inv in H.
Qed.
Lemma fsub_ok : made kept st (var_sub fop cp uniq st a0 a1) t (N.max n0 n1) (g2 st a0 a1 (G2 Sub t)).
Proof.
  open2 var_sub. apply frame_float.
  - cbn; auto.
  - intros a b x H. now apply claimed2_inv in H.
  - intros x y. unfold eval_arith. rewrite FL. destruct t; try discriminate; reflexivity.
  - intros CP NL. destruct (is_any_zero (mkVar t n1 d1)) eqn:Z1.
    { apply any_zero_float in Z1 as (z & D & Z). eapply left2; eauto. intros a b x A B H U0 U1 UE. apply claimed2_inv in H as (H & -> & NA & NB). rewrite (U1 z D) in *.
      apply (sub_r fop t LW); [exact Z|split; assumption|]. unfold claimed2 in H. apply andb_prop in H as [_ H]. rewrite Z, andb_true_r in H. now apply negb_true_iff in H. }
    rewrite FL. cbn [negb]. rewrite andb_false_r. eapply node2w; eauto; [cbn; auto|]. intros a b x H. now apply claimed2_inv in H.
Qed.
Lemma fmul_ok : fast = false -> made kept st (var_mul fop cp fast uniq st a0 a1) t (N.max n0 n1) (g2 st a0 a1 (G2 Mul t)).
Proof.
  intros FM. assert (NI : is_int t = false) by now destruct t. assert (NU : is_uint t = false) by now destruct t. open2 var_mul. apply frame_float.
  - cbn; auto.
  - intros a b x H. now apply claimed2_inv in H.
  - intros x y. unfold eval_arith. rewrite FL. destruct t; try discriminate; reflexivity.
  - intros CP NL. rewrite NI, FM, NU. cbn [orb andb]. rewrite !andb_false_r, !orb_false_r.
    destruct (is_one (mkVar t n0 d0)) eqn:O0.
    { apply one_float in O0. eapply right2; eauto. intros a b x A B H U0 U1 UE. apply claimed2_inv in H as (H & -> & NA & NB). rewrite (U0 _ O0). apply (mul_l fop t LW). split; assumption. }
    destruct (is_one (mkVar t n1 d1)) eqn:O1.
    { apply one_float in O1. eapply left2; eauto. intros a b x A B H U0 U1 UE. apply claimed2_inv in H as (H & -> & NA & NB). rewrite (U1 _ O1). apply (mul_r fop t LW). split; assumption. }
    eapply node2w; eauto; [cbn; auto|]. intros a b x H. now apply claimed2_inv in H.
Qed.
End Two.

Lemma fdiv_ok : forall st a0 a1 t n0 n1 d0 d1, wf st -> get st a0 = Some (mkVar t n0 d0) -> get st a1 = Some (mkVar t n1 d1) ->
  compat n0 n1 -> is_float t = true -> laws t -> (cp = true -> is_literal (mkVar t n0 d0) = false -> is_literal (mkVar t n1 d1) = true -> width t <= 16) ->
  made kept st (var_div fop cp fast uniq st a0 a1) t (N.max n0 n1) (g2 st a0 a1 (G2 Div t)).
Proof.
  intros st a0 a1 t n0 n1 d0 d1 W E0 E1 C FL LW R. assert (NU : is_uint t = false) by now destruct t. open2 var_div.
  apply frame_float; auto.
  - cbn; auto.
  - intros a b x H. now apply claimed2_inv in H.
  - intros x y. unfold eval_div. rewrite FL. destruct t; try discriminate; reflexivity.
  - intros CP NL. rewrite NU, FL. cbn [negb andb]. rewrite andb_false_r.
    destruct (is_one (mkVar t n1 d1)) eqn:O1.
    { apply one_float in O1. eapply left2; eauto. intros a b x A B H U0 U1 UE. apply claimed2_inv in H as (H & -> & NA & NB). rewrite (U1 _ O1). apply (div_r fop t LW). split; assumption. }
    assert (Z : (16 <? width t) && is_literal (mkVar t n1 d1) = false).
    { destruct (is_literal (mkVar t n1 d1)) eqn:L1; [|apply andb_false_r]. rewrite andb_true_r in NL |- *. apply N.ltb_ge. auto. }
    rewrite Z. eapply node2w; eauto; [cbn; auto|]. intros a b x H. now apply claimed2_inv in H.
Qed.
(** Division by a literal becomes a multiplication by its reciprocal. *)
Lemma frcp_ok : forall st a0 a1 t n0 n1 d0 y, wf st -> get st a0 = Some (mkVar t n0 d0) -> get st a1 = Some (mkVar t n1 (Lit y)) ->
  compat n0 n1 -> is_float t = true -> laws t -> cp = true -> fast = false -> is_literal (mkVar t n0 d0) = false -> 16 < width t ->
  made kept st (var_div fop cp fast uniq st a0 a1) t (N.max n0 n1) (g2 st a0 a1 (D2 t)).
Proof.
  intros st a0 a1 t n0 n1 d0 y W E0 E1 C FL LW CP FM L0 WD. assert (NU : is_uint t = false) by now destruct t. open2 var_div.
  assert (L1 : is_literal (mkVar t n1 (Lit y)) = true) by reflexivity. rewrite L0, L1, CP, NU, FL. cbn [orb andb negb].
  assert (Y : y < 2 ^ width t) by (eapply lit_range; [exact W|exact E1]).
  destruct (is_one (mkVar t n1 (Lit y))) eqn:O1.
  { apply one_float in O1. injection O1 as ->. eapply left2; eauto. intros a b x A B H U0 U1 UE. rewrite (U1 _ eq_refl) in H. unfold D2 in H.
    destruct (float_width t FL) as (H1 & H2 & H3 & H4 & H5). rewrite (div_r fop t LW) in H by (split; assumption). rewrite H3, andb_true_r in H.
    destruct (is_nan t a) eqn:NA; [discriminate|]. injection H as <-. apply (mul_r fop t LW). split; assumption. }
  replace (16 <? width t) with true by (symmetry; now apply N.ltb_lt). cbn [andb].
  set (q := fop Div t [t; t] [type_one t; lit_of (mkVar t n1 (Lit y))]).
  assert (N1 : 1 <= n1) by apply (wf_get fop st a1 _ W E1).
  destruct (made_literal fop st t q n1 W N1) as (st' & r & E & W' & X & _ & _). { intros ->. discriminate. }
  assert (G' : get st' r = Some (mkVar t n1 (Lit (wrap t q)))).
  { unfold literal, push in E. replace (is_bool t) with false in E by now destruct t. destruct (n1 =? 0) eqn:Z; [apply N.eqb_eq in Z; lia|]. injection E as <- <-. apply get_new. }
  rewrite E. cbn [obind fst snd].
  assert (K : kept st st') by now apply extends_kept.
  destruct (K _ _ _ _ E0) as [(n' & G0' & _) V0]. assert (G0 : get st' a0 = Some (mkVar t n0 d0)) by (destruct X as [s ->]; now apply get_app).
  destruct (fmul_ok st' a0 r t n0 n1 d0 (Lit (wrap t q)) W' G0 G' C FL LW FM) as (st2 & r2 & E2 & W2 & K2 & H2 & V2).
  rewrite CP in E2. rewrite E2. exists st2, r2. split; [reflexivity|]. split; [exact W2|]. split; [eapply kept_trans; eauto|]. split; [exact H2|].
  intros l x H. apply V2. apply g2_inv in H as (a & b & A & B & H). unfold Op_Proofs.g2. rewrite V0, A. rewrite (value_literal _ _ _ _ (wrap t q) l G' eq_refl). cbn [bind].
  rewrite (value_literal _ _ _ _ y l E1 eq_refl) in B. injection B as <-. unfold D2 in H. change (op2 Div t (type_one t) y) with (wrap t q) in H. unfold G2, claimed2. rewrite andb_true_r. exact H.
Qed.

Lemma G3_inv : forall t a b c x, G3 t a b c = Some x -> x = op3 t a b c /\ is_nan t a = false /\ is_nan t b = false /\ is_nan t c = false /\
  is_nan t (op2 Mul t a b) = false /\ fzero t (op2 Mul t a b) && fzero t c = false.
Proof.
  intros t a b c x H. unfold G3 in H. destruct (claimed3 t a b c) eqn:C; [|discriminate]. injection H as <-. split; [reflexivity|].
  unfold Op_FSpec.claimed3 in C. apply andb_prop in C as [C C5]. apply andb_prop in C as [C C4]. apply andb_prop in C as [C C3]. apply andb_prop in C as [C1 C2].
  apply negb_true_iff in C1, C2, C3, C4, C5. auto 6.
Qed.
Lemma ffma_ok : forall st a0 a1 a2 t n0 n1 n2 d0 d1 d2, wf st -> get st a0 = Some (mkVar t n0 d0) ->
  get st a1 = Some (mkVar t n1 d1) -> get st a2 = Some (mkVar t n2 d2) ->
  compat n0 n1 -> compat n0 n2 -> compat n1 n2 -> is_float t = true -> laws t -> fma_laws t -> fast = false ->
  made kept st (var_fma fop cp fast uniq st a0 a1 a2) t (N.max n0 (N.max n1 n2)) (g3 st a0 a1 a2 (G3 t)).
Proof.
  intros st a0 a1 a2 t n0 n1 n2 d0 d1 d2 W E0 E1 E2 C01 C02 C12 FL LW FW FM. unfold var_fma.
  erewrite check_three by eauto. rewrite E0, E1, E2. cbn [obind i_simplify i_literal i_ty i_size v_ty v_size].
  destruct (compat3 _ _ _ (wf_get _ _ _ _ W E0) (wf_get _ _ _ _ W E1) (wf_get _ _ _ _ W E2) C01 C02 C12) as (S0 & S1 & S2 & N).
  cbn [v_size] in S0, S1, S2, N.
  assert (M : made kept st (node st Fma t (N.max n0 (N.max n1 n2)) [a0; a1; a2]) t (N.max n0 (N.max n1 n2)) (g3 st a0 a1 a2 (G3 t))).
  { apply made_kept. eapply made_ext; [eapply (leaf_node3 fop) with (F := fun a b c => Some (op3 t a b c)); eauto; try tauto|].
    - intros. unfold ir. rewrite FL. reflexivity.
    - intros a b c x _ _ _ H. injection H as <-. apply wrap_lt.
    - intros l x H. apply g3_inv in H as (a & b & c & V0 & V1 & V2 & H). apply G3_inv in H as (-> & _). unfold Op_Proofs.g3. rewrite V0, V1, V2. reflexivity. }
  match goal with |- made _ _ (if ?c then _ else _) _ _ _ => destruct c eqn:SI; [|exact M] end.
  destruct (is_literal (mkVar t n0 d0) && (is_literal (mkVar t n1 d1) && is_literal (mkVar t n2 d2))) eqn:Q.
  { apply andb_prop in Q as [Q0 Q]. apply andb_prop in Q as [Q1 Q2].
    destruct (is_literal_desc _ _ _ Q0) as [x ->]. destruct (is_literal_desc _ _ _ Q1) as [y ->]. destruct (is_literal_desc _ _ _ Q2) as [z ->].
    cbn [lit_of v_desc]. unfold eval_literal, eval_fma. rewrite FL. replace (is_bool t) with false by now destruct t. cbn [obind i_ty i_size]. apply leaf_literal; auto; [intros ->; discriminate|].
    intros l q H. apply g3_inv in H as (a & b & c & V0 & V1 & V2 & H).
    rewrite (value_literal _ _ _ _ x l E0 eq_refl) in V0. injection V0 as <-.
    rewrite (value_literal _ _ _ _ y l E1 eq_refl) in V1. injection V1 as <-.
    rewrite (value_literal _ _ _ _ z l E2 eq_refl) in V2. injection V2 as <-. apply G3_inv in H as (-> & _). symmetry. apply wrap_small, wrap_lt. }
  assert (FIN : forall res m f, made kept st res t m f -> (m = N.max n0 (N.max n1 n2) \/ m = 1) ->
    (forall l x, g3 st a0 a1 a2 (G3 t) l = Some x -> f l = Some x) ->
    made kept st (let! r := res in resize uniq (fst r) (snd r) (N.max n0 (N.max n1 n2))) t (N.max n0 (N.max n1 n2)) (g3 st a0 a1 a2 (G3 t))).
  { intros res m f M1 S E. eapply (made_then fop st res t m f _ (fun st r => resize uniq st r (N.max n0 (N.max n1 n2)))); [exact M1|].
    intros st' r W' K' [d H'] V'. apply leaf_resize with (n := m) (d := d); auto. }
  destruct (is_one (mkVar t n0 d0)) eqn:O0.
  { apply one_float in O0. subst d0.
    eapply FIN; [apply fadd_ok with (t := t) (n0 := n1) (n1 := n2) (d0 := d1) (d1 := d2); auto| |].
    - unfold compat in *. lia.
    - intros l x H. apply g3_inv in H as (a & b & c & V0 & V1 & V2 & H). apply G3_inv in H as (-> & NA & NB & NC & NP & PZ). unfold Op_Proofs.g2. rewrite V1, V2. cbn [bind].
      rewrite (value_literal _ _ _ _ _ l E0 eq_refl) in V0. injection V0 as <-.
      pose proof (wf_range _ _ _ _ _ _ _ _ W E1 V1) as RB. pose proof (wf_range _ _ _ _ _ _ _ _ W E2 V2) as RC.
      rewrite (mul_l fop t LW) in PZ by (split; assumption). unfold G2, claimed2. rewrite NB, NC, PZ. cbn [negb andb]. f_equal. symmetry. apply (fma_l fop t FW); split; assumption. }
  destruct (is_one (mkVar t n1 d1)) eqn:O1.
  { apply one_float in O1. subst d1.
    eapply FIN; [apply fadd_ok with (t := t) (n0 := n0) (n1 := n2) (d0 := d0) (d1 := d2); auto| |].
    - unfold compat in *. lia.
    - intros l x H. apply g3_inv in H as (a & b & c & V0 & V1 & V2 & H). apply G3_inv in H as (-> & NA & NB & NC & NP & PZ). unfold Op_Proofs.g2. rewrite V0, V2. cbn [bind].
      rewrite (value_literal _ _ _ _ _ l E1 eq_refl) in V1. injection V1 as <-.
      pose proof (wf_range _ _ _ _ _ _ _ _ W E0 V0) as RA. pose proof (wf_range _ _ _ _ _ _ _ _ W E2 V2) as RC.
      rewrite (mul_r fop t LW) in PZ by (split; assumption). unfold G2, claimed2. rewrite NA, NC, PZ. cbn [negb andb]. f_equal. symmetry. apply (fma_r fop t FW); split; assumption. }
  destruct (is_any_zero (mkVar t n2 d2)) eqn:O2.
  { apply any_zero_float in O2 as (z & -> & Z).
    eapply FIN; [apply fmul_ok with (t := t) (n0 := n0) (n1 := n1) (d0 := d0) (d1 := d1); auto| |].
    - unfold compat in *. lia.
    - intros l x H. apply g3_inv in H as (a & b & c & V0 & V1 & V2 & H). apply G3_inv in H as (-> & NA & NB & NC & NP & PZ). unfold Op_Proofs.g2. rewrite V0, V1. cbn [bind].
      rewrite (value_literal _ _ _ _ _ l E2 eq_refl) in V2. injection V2 as <-. rewrite Z, andb_true_r in PZ.
      pose proof (wf_range _ _ _ _ _ _ _ _ W E0 V0) as RA. pose proof (wf_range _ _ _ _ _ _ _ _ W E1 V1) as RB.
      unfold G2, claimed2. rewrite NA, NB. cbn [negb andb]. f_equal. symmetry. apply (fma_z fop t FW); auto; split; assumption. }
  rewrite FM, andb_false_r, orb_false_r.
  destruct (is_any_zero (mkVar t n0 d0) && is_any_zero (mkVar t n1 d1)) eqn:Z01; [|exact M]. apply andb_prop in Z01 as [Z0 Z1].
  apply any_zero_float in Z0 as (y & -> & Y). apply any_zero_float in Z1 as (z & -> & Z).
  cbn [obind fst snd]. apply leaf_resize with (n := n2) (d := d2); auto.
  intros l x H. apply g3_inv in H as (a & b & c & V0 & V1 & V2 & H). apply G3_inv in H as (-> & NA & NB & NC & NP & PZ). rewrite V2.
  rewrite (value_literal _ _ _ _ _ l E0 eq_refl) in V0. injection V0 as <-. rewrite (value_literal _ _ _ _ _ l E1 eq_refl) in V1. injection V1 as <-.
  rewrite (mul_z fop t LW) in PZ by assumption. cbn [andb] in PZ. pose proof (wf_range _ _ _ _ _ _ _ _ W E2 V2) as RC.
  f_equal. symmetry. apply (fma_zz fop t FW); auto. split; assumption.
Qed.

(** In the vocabulary of the specification *)
Lemma float_built : forall k B st a0 a1 t n0 n1, wf st -> has st a0 t n0 -> has st a1 t n1 -> compat n0 n1 -> is_float t = true -> laws t -> fast = false ->
  In (k, B) [(Add, var_add fop cp uniq); (Sub, var_sub fop cp uniq); (Mul, var_mul fop cp fast uniq)] ->
  built fop st (B st a0 a1) t (N.max n0 n1) (fun l x => exists a b, value st a0 l = Some a /\ value st a1 l = Some b /\ claimed2 k t a b = true /\ x = op2 k t a b).
Proof.
  intros k B st a0 a1 t n0 n1 W [d0 E0] [d1 E1] C FL LW FM K.
  eapply built_made with (f := g2 st a0 a1 (G2 k t)).
  - destruct K as [K|[K|[K|[]]]]; injection K as <- <-; [eapply fadd_ok|eapply fsub_ok|eapply fmul_ok]; eauto.
  - intros l x (a & b & A & B1 & H & ->). unfold Op_Proofs.g2. rewrite A, B1. cbn [bind]. unfold G2. now rewrite H.
Qed.
Lemma not_lit : forall st h t n d, get st h = Some (mkVar t n d) -> is_literal (mkVar t n d) = false <-> (forall x, ~ literal_is st h x).
Proof.
  intros st h t n d G. split.
  - intros L x (v & G' & D). rewrite G in G'. injection G' as <-. cbn in D. subst d. discriminate.
  - intros H. destruct (is_literal (mkVar t n d)) eqn:L; [|reflexivity]. destruct (is_literal_desc _ _ _ L) as [x ->]. exfalso. apply (H x). eexists. split; [exact G|reflexivity].
Qed.
Lemma fdiv_built : forall st a0 a1 t n0 n1, wf st -> has st a0 t n0 -> has st a1 t n1 -> compat n0 n1 -> is_float t = true -> laws t ->
  t = F16 \/ cp = false \/ (exists x, literal_is st a0 x) \/ (forall y, ~ literal_is st a1 y) ->
  built fop st (var_div fop cp fast uniq st a0 a1) t (N.max n0 n1) (fun l x => exists a b, value st a0 l = Some a /\ value st a1 l = Some b /\ claimed2 Div t a b = true /\ x = op2 Div t a b).
Proof.
  intros st a0 a1 t n0 n1 W [d0 E0] [d1 E1] C FL LW Q.
  eapply built_made with (f := g2 st a0 a1 (G2 Div t)).
  - eapply fdiv_ok; eauto. intros CP L0 L1. destruct Q as [->|[Q|[[x Q]|Q]]]; [cbn; lia|congruence| |].
    + exfalso. eapply (proj1 (not_lit _ _ _ _ _ E0)); eauto.
    + apply (not_lit _ _ _ _ _ E1) in Q. congruence.
  - intros l x (a & b & A & B1 & H & ->). unfold Op_Proofs.g2. rewrite A, B1. cbn [bind]. unfold G2. now rewrite H.
Qed.
Lemma frcp_built : forall st a0 a1 t n0 n1 y, wf st -> has st a0 t n0 -> has st a1 t n1 -> compat n0 n1 -> t = F32 \/ t = F64 -> laws t -> cp = true -> fast = false ->
  (forall x, ~ literal_is st a0 x) -> literal_is st a1 y ->
  built fop st (var_div fop cp fast uniq st a0 a1) t (N.max n0 n1)
    (fun l x => exists a, value st a0 l = Some a /\ is_nan t a = false /\ is_nan t (op2 Div t (type_one t) y) = false /\ x = op2 Mul t a (op2 Div t (type_one t) y)).
Proof.
  intros st a0 a1 t n0 n1 y W [d0 E0] [d1 E1] C T LW CP FM L0 (v & E1' & D1). rewrite E1 in E1'. injection E1' as <-. cbn in D1. subst d1.
  eapply built_made with (f := g2 st a0 a1 (D2 t)).
  - apply (not_lit _ _ _ _ _ E0) in L0. eapply frcp_ok; eauto; destruct T as [->| ->]; (reflexivity || (cbn; lia)).
  - intros l x (a & A & NA & NR & ->). unfold Op_Proofs.g2. rewrite A. rewrite (value_literal _ _ _ _ y l E1 eq_refl). cbn [bind]. unfold D2. now rewrite NA, NR.
Qed.
Lemma ffma_built : forall st a0 a1 a2 t n0 n1 n2, wf st -> has st a0 t n0 -> has st a1 t n1 -> has st a2 t n2 ->
  compat n0 n1 -> compat n0 n2 -> compat n1 n2 -> is_float t = true -> laws t -> fma_laws t -> fast = false ->
  built fop st (var_fma fop cp fast uniq st a0 a1 a2) t (N.max n0 (N.max n1 n2))
    (fun l x => exists a b c, value st a0 l = Some a /\ value st a1 l = Some b /\ value st a2 l = Some c /\ claimed3 t a b c = true /\ x = op3 t a b c).
Proof.
  intros st a0 a1 a2 t n0 n1 n2 W [d0 E0] [d1 E1] [d2 E2] C01 C02 C12 FL LW FW FM.
  eapply built_made with (f := g3 st a0 a1 a2 (G3 t)).
  - eapply ffma_ok; eauto.
  - intros l x (a & b & c & A & B & C & H & ->). unfold Op_Proofs.g3. rewrite A, B, C. cbn [bind]. unfold G3. now rewrite H.
Qed.
End Float.
