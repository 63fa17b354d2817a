(** The builders compute the specified operation. *)
From Verif Require Import Base Op_Model Op_Spec Op_Bits Op_Fold Op_Store.
Local Open Scope N_scope.

Lemma fold_max1 : forall a, fold_right N.max 0 [a] = a.
Proof. intros. cbn. lia. Qed.
Lemma lit_is_desc : forall t n d x, lit_is (mkVar t n d) x = true -> d = Lit x.
Proof. intros t n [y| | |] x H; try discriminate. cbn in H. apply N.eqb_eq in H. now subst. Qed.
Lemma get_lit : forall st h t n x, get st h = Some (mkVar t n (Lit x)) -> literal_is st h x.
Proof. intros. eexists. split; [eassumption|reflexivity]. Qed.
Lemma is_literal_desc : forall t n d, is_literal (mkVar t n d) = true -> exists x, d = Lit x.
Proof. intros t n [x| | |] H; try discriminate. eauto. Qed.
Lemma any_zero_int : forall t n d, is_float t = false -> is_any_zero (mkVar t n d) = true -> d = Lit 0.
Proof. intros t n d F H. unfold is_any_zero in H. cbn [v_ty] in H. rewrite F, orb_false_r in H. now apply lit_is_desc in H. Qed.
Lemma is_one_desc : forall t n d, is_float t = false -> is_one (mkVar t n d) = true -> d = Lit 1.
Proof. intros t n d F H. apply lit_is_desc in H. cbn [v_ty] in H. now destruct t. Qed.

Section Builders.
Variable fop : kind -> ty -> list ty -> list N -> N.
Variables (cp fast : bool).
Variable uniq : store -> nat -> bool.
Notation value := (value fop).
Notation wf := (wf fop).
Notation kept := (kept fop).
Notation made := (made fop).
Notation built := (built fop).

Lemma wf_get : forall st h v, wf st -> get st h = Some v -> 1 <= v_size v.
Proof. intros st [|h] v [W _] G; [discriminate|]. now destruct (W _ _ G). Qed.
Lemma wf_range : forall st h t n d l x, wf st -> get st h = Some (mkVar t n d) -> value st h l = Some x -> x < 2 ^ width t.
Proof. intros st h t n d l x [_ R] G V. apply (R _ _ _ _ G V). Qed.

Lemma check_one : forall st a v, wf st -> get st a = Some v ->
  check cp st [a] = Ok (mkInfo (v_ty v) (v_size v) (is_literal v && cp) (is_literal v)).
Proof.
  intros st a v W G. pose proof (wf_get _ _ _ W G) as P. unfold check. cbn [map]. rewrite G. cbn [vsize fold_right find existsb forallb].
  rewrite N.max_0_r, orb_false_r, andb_true_r, andb_false_r, orb_false_r.
  rewrite N.eqb_refl. cbn [orb andb negb]. rewrite andb_false_r.
  destruct (N.eqb_spec (v_size v) 0); [lia|]. now rewrite orb_false_r, andb_true_r.
Qed.
Lemma check_two : forall st a0 a1 v0 v1, wf st -> get st a0 = Some v0 -> get st a1 = Some v1 ->
  compat (v_size v0) (v_size v1) ->
  check cp st [a0; a1] = Ok (mkInfo (v_ty v0) (N.max (v_size v0) (v_size v1))
     ((is_literal v0 || is_literal v1 || Nat.eqb a0 a1) && cp) (is_literal v0 && is_literal v1)).
Proof.
  intros st a0 a1 v0 v1 W G0 G1 C. pose proof (wf_get _ _ _ W G0) as P0. pose proof (wf_get _ _ _ W G1) as P1.
  unfold check. cbn [map]. rewrite G0, G1. cbn [vsize fold_right find existsb forallb].
  rewrite N.max_0_r, orb_false_r, !andb_true_r. set (n := N.max (v_size v0) (v_size v1)).
  assert (N : 0 <? n = true) by (apply N.ltb_lt; lia). rewrite N. cbn [andb].
  replace (((v_size v0 =? n) || (v_size v0 =? 1)) && ((v_size v1 =? n) || (v_size v1 =? 1))) with true.
  2:{ symmetry. unfold n. destruct C as [->|[-> | ->]]; rewrite ?N.max_id, ?N.eqb_refl; cbn; rewrite ?orb_true_r; auto.
      - rewrite N.max_r by assumption. now rewrite N.eqb_refl, ?orb_true_r.
      - rewrite N.max_l by assumption. now rewrite N.eqb_refl, ?orb_true_r. }
  cbn [negb]. destruct (N.eqb_spec n 0); [lia|]. now rewrite orb_false_r.
Qed.
Lemma check_three : forall st a0 a1 a2 v0 v1 v2, wf st -> get st a0 = Some v0 -> get st a1 = Some v1 -> get st a2 = Some v2 ->
  compat (v_size v0) (v_size v1) -> compat (v_size v0) (v_size v2) -> compat (v_size v1) (v_size v2) ->
  check cp st [a0; a1; a2] = Ok (mkInfo (v_ty v0) (N.max (v_size v0) (N.max (v_size v1) (v_size v2)))
     ((is_literal v0 || (is_literal v1 || is_literal v2)) && cp) (is_literal v0 && (is_literal v1 && is_literal v2))).
Proof.
  intros st a0 a1 a2 v0 v1 v2 W G0 G1 G2 C01 C02 C12.
  pose proof (wf_get _ _ _ W G0) as P0. pose proof (wf_get _ _ _ W G1) as P1. pose proof (wf_get _ _ _ W G2) as P2.
  unfold check. cbn [map]. rewrite G0, G1, G2. cbn [vsize fold_right find existsb forallb].
  rewrite N.max_0_r, !orb_false_r, !andb_true_r, andb_false_r, orb_false_r.
  set (n := N.max (v_size v0) (N.max (v_size v1) (v_size v2))).
  assert (E : forall m, m = n \/ m = 1 -> (m =? n) || (m =? 1) = true).
  { intros m [->| ->]; rewrite N.eqb_refl; [reflexivity|apply orb_true_r]. }
  rewrite !E by (unfold compat in *; subst n; lia). cbn [negb andb]. rewrite andb_false_r.
  destruct (N.eqb_spec n 0); [unfold n in *; lia|]. now rewrite orb_false_r.
Qed.

(** Lanes of an operation on one, two or three operands *)
Definition g1 (st : store) (a0 : nat) (F : N -> option N) (l : N) : option N :=
  let? a := value st a0 l in F a.
Definition g2 (st : store) (a0 a1 : nat) (F : N -> N -> option N) (l : N) : option N :=
  let? a := value st a0 l in let? b := value st a1 l in F a b.
Definition g3 (st : store) (a0 a1 a2 : nat) (F : N -> N -> N -> option N) (l : N) : option N :=
  let? a := value st a0 l in let? b := value st a1 l in let? c := value st a2 l in F a b c.
Lemma g1_inv : forall st a0 F l x, g1 st a0 F l = Some x -> exists a, value st a0 l = Some a /\ F a = Some x.
Proof. unfold g1. intros. destruct (value st a0 l); [|discriminate]. eauto. Qed.
Lemma g2_inv : forall st a0 a1 F l x, g2 st a0 a1 F l = Some x ->
  exists a b, value st a0 l = Some a /\ value st a1 l = Some b /\ F a b = Some x.
Proof. unfold g2. intros. destruct (value st a0 l); [|discriminate]. cbn in H. destruct (value st a1 l); [|discriminate]. eauto. Qed.
Lemma g3_inv : forall st a0 a1 a2 F l x, g3 st a0 a1 a2 F l = Some x ->
  exists a b c, value st a0 l = Some a /\ value st a1 l = Some b /\ value st a2 l = Some c /\ F a b c = Some x.
Proof.
  unfold g3. intros. destruct (value st a0 l); [|discriminate]. cbn in H. destruct (value st a1 l); [|discriminate].
  cbn in H. destruct (value st a2 l); [|discriminate]. eauto 8.
Qed.

(** Leaves shared by all builders: a literal, an operand, a node. *)
Lemma leaf_literal : forall st t x n f, wf st -> 1 <= n -> (t = Bool -> x < 2) ->
  (forall l y, f l = Some y -> y = wrap t x) -> made kept st (literal st t x n) t n f.
Proof.
  intros st t x n f W N B H. eapply made_weaken; [now apply made_literal|].
  intros l y E. cbn beta. now rewrite (H l y E).
Qed.
Lemma leaf_resize : forall st h t n d m f, wf st -> get st h = Some (mkVar t n d) -> (n = m \/ n = 1) -> 1 <= m ->
  (forall l y, f l = Some y -> value st h l = Some y) -> made kept st (resize uniq st h m) t m f.
Proof.
  intros st h t n d m f W G S M H. eapply made_ext; [|exact H]. apply made_resize with (n := n); auto.
  - now exists d.
  - destruct S; auto.
Qed.
Lemma leaf_node1 : forall k rt st a0 t0 n0 d0 F, wf st -> get st a0 = Some (mkVar t0 n0 d0) ->
  (forall a, a < 2 ^ width t0 -> ir fop k rt [t0] [a] = F a) ->
  (forall a x, a < 2 ^ width t0 -> F a = Some x -> x < 2 ^ width rt) ->
  made extends st (node st k rt n0 [a0]) rt n0 (g1 st a0 F).
Proof.
  intros k rt st a0 t0 n0 d0 F W G0 E R.
  assert (V : forall l, node_val fop st k rt [a0] l = g1 st a0 F l).
  { intros l. unfold node_val, types, values, g1. cbn [map seq_opt]. rewrite G0. cbn.
    destruct (value st a0 l) eqn:V0; [|reflexivity]. cbn. apply E. eapply wf_range; eauto. }
  eapply made_ext; [apply made_node; auto|].
  - apply (wf_get _ _ _ W G0).
  - intros h [<-|[]]. exists (mkVar t0 n0 d0). auto.
  - intros l x H. rewrite V in H. apply g1_inv in H as (a & V0 & H). eapply R; eauto using wf_range.
  - intros l x H. now rewrite V.
Qed.
Lemma leaf_node2 : forall k rt n st a0 t0 n0 d0 a1 t1 n1 d1 F, wf st ->
  get st a0 = Some (mkVar t0 n0 d0) -> get st a1 = Some (mkVar t1 n1 d1) -> 1 <= n ->
  (n0 = 1 \/ n0 = n) -> (n1 = 1 \/ n1 = n) ->
  (forall a b, a < 2 ^ width t0 -> b < 2 ^ width t1 -> ir fop k rt [t0; t1] [a; b] = F a b) ->
  (forall a b x, a < 2 ^ width t0 -> b < 2 ^ width t1 -> F a b = Some x -> x < 2 ^ width rt) ->
  made extends st (node st k rt n [a0; a1]) rt n (g2 st a0 a1 F).
Proof.
  intros k rt n st a0 t0 n0 d0 a1 t1 n1 d1 F W G0 G1 N S0 S1 E R.
  assert (V : forall l, node_val fop st k rt [a0; a1] l = g2 st a0 a1 F l).
  { intros l. unfold node_val, types, values, g2. cbn [map seq_opt]. rewrite G0, G1. cbn.
    destruct (value st a0 l) eqn:V0; [|reflexivity]. cbn. destruct (value st a1 l) eqn:V1; [|reflexivity]. cbn.
    apply E; eapply wf_range; eauto. }
  eapply made_ext; [apply made_node; auto|].
  - intros h [<-|[<-|[]]]; eauto.
  - intros l x H. rewrite V in H. apply g2_inv in H as (a & b & V0 & V1 & H).
    apply (R a b); eauto using wf_range.
  - intros l x H. now rewrite V.
Qed.
Lemma leaf_node3 : forall k rt n st a0 t0 n0 d0 a1 t1 n1 d1 a2 t2 n2 d2 F, wf st ->
  get st a0 = Some (mkVar t0 n0 d0) -> get st a1 = Some (mkVar t1 n1 d1) -> get st a2 = Some (mkVar t2 n2 d2) -> 1 <= n ->
  (n0 = 1 \/ n0 = n) -> (n1 = 1 \/ n1 = n) -> (n2 = 1 \/ n2 = n) ->
  (forall a b c, a < 2 ^ width t0 -> b < 2 ^ width t1 -> c < 2 ^ width t2 -> ir fop k rt [t0; t1; t2] [a; b; c] = F a b c) ->
  (forall a b c x, a < 2 ^ width t0 -> b < 2 ^ width t1 -> c < 2 ^ width t2 -> F a b c = Some x -> x < 2 ^ width rt) ->
  made extends st (node st k rt n [a0; a1; a2]) rt n (g3 st a0 a1 a2 F).
Proof.
  intros k rt n st a0 t0 n0 d0 a1 t1 n1 d1 a2 t2 n2 d2 F W G0 G1 G2 N S0 S1 S2 E R.
  assert (V : forall l, node_val fop st k rt [a0; a1; a2] l = g3 st a0 a1 a2 F l).
  { intros l. unfold node_val, types, values, g3. cbn [map seq_opt]. rewrite G0, G1, G2. cbn.
    destruct (value st a0 l) eqn:V0; [|reflexivity]. cbn. destruct (value st a1 l) eqn:V1; [|reflexivity]. cbn.
    destruct (value st a2 l) eqn:V2; [|reflexivity]. cbn. apply E; eapply wf_range; eauto. }
  eapply made_ext; [apply made_node; auto|].
  - intros h [<-|[<-|[<-|[]]]]; eauto.
  - intros l x H. rewrite V in H. apply g3_inv in H as (a & b & c & V0 & V1 & V2 & H).
    apply (R a b c); eauto using wf_range.
  - intros l x H. now rewrite V.
Qed.
Lemma made_kept : forall st res t n f, made extends st res t n f -> made kept st res t n f.
Proof. intros. eapply made_weaken; eauto. Qed.

Lemma compat_sizes : forall n m, 1 <= n -> 1 <= m -> compat n m ->
  (n = N.max n m \/ n = 1) /\ (m = N.max n m \/ m = 1) /\ 1 <= N.max n m.
Proof. clear. unfold compat. intros. lia. Qed.

(** The specified operation on bit patterns. *)
Definition F1 (k : kind) (t rt : ty) (a : N) : option N := option_map (bits rt) (spec1 k t (num t a)).
Definition F2 (k : kind) (t rt : ty) (a b : N) : option N := option_map (bits rt) (spec2 k t (num t a) (num t b)).
Definition F3 (t : ty) (a b c : N) : option N := Some (bits t (num t a * num t b + num t c)).
Lemma F1_range : forall k t rt a x, F1 k t rt a = Some x -> x < 2 ^ width rt.
Proof. unfold F1. intros k t rt a x H. destruct (spec1 _ _ _); [|discriminate]. injection H as <-. apply bits_lt. Qed.
Lemma F2_range : forall k t rt a b x, F2 k t rt a b = Some x -> x < 2 ^ width rt.
Proof. unfold F2. intros k t rt a b x H. destruct (spec2 _ _ _ _); [|discriminate]. injection H as <-. apply bits_lt. Qed.

(** *** One operand *)
Section Unary.
Variables (st : store) (a0 : nat) (t : ty) (n : N) (d : desc).
Hypothesis W : wf st.
Hypothesis G : get st a0 = Some (mkVar t n d).

Lemma unary_ok : forall k ev F,
  (forall a, a < 2 ^ width t -> ir fop k t [t] [a] = F a) ->
  (forall a x, a < 2 ^ width t -> F a = Some x -> x < 2 ^ width t) ->
  (forall x, cp = true -> d = Lit x -> exists y, ev t x = Ok y /\ (t = Bool -> y < 2) /\ forall z, F x = Some z -> z = wrap t y) ->
  made extends st (unary cp k ev st a0) t n (g1 st a0 F).
Proof.
  intros k ev F E R L. unfold unary, with1. rewrite (check_one _ _ _ W G), G. cbn [obind i_simplify i_literal v_ty v_size].
  destruct (is_literal (mkVar t n d) && cp && is_literal (mkVar t n d)) eqn:S.
  - apply andb_prop in S as [S S1]. apply andb_prop in S as [_ S2]. destruct (is_literal_desc _ _ _ S1) as [x D].
    destruct (L x S2 D) as (y & Y & B & Z). unfold eval_literal, lit_of. cbn [v_desc]. rewrite D, Y. cbn [obind i_ty i_size].
    eapply made_ext; [apply made_literal; auto; apply (wf_get _ _ _ W G)|].
    intros l z H. apply g1_inv in H as (a & V & H). rewrite D in G. rewrite (value_literal _ _ _ _ x l G eq_refl) in V.
    injection V as <-. now rewrite (Z z H).
  - unfold mk1. cbn [i_ty i_size]. eapply leaf_node1; eauto.
Qed.
End Unary.

Lemma lit_range : forall st h t n x, wf st -> get st h = Some (mkVar t n (Lit x)) -> x < 2 ^ width t.
Proof. intros st [|h] t n x [W _] G; [discriminate|]. now destruct (W _ _ G). Qed.
Lemma int_bool : forall t y, is_int t = true -> t = Bool -> y < 2.
Proof. intros t y I ->. discriminate. Qed.

Lemma neg_ok : forall st a0 t n d, wf st -> get st a0 = Some (mkVar t n d) -> is_int t = true ->
  (forall x, cp = true -> d = Lit x -> fold1_ok Neg t (num t x)) ->
  made extends st (var_neg fop cp st a0) t n (g1 st a0 (F1 Neg t t)).
Proof.
  intros st a0 t n d W G I L. eapply unary_ok; eauto.
  - intros. now apply ir_neg.
  - intros. eapply F1_range; eauto.
  - intros x C ->. destruct (fold_neg fop t x I (lit_range _ _ _ _ _ W G)) as [Q _].
    destruct (Q (L x C eq_refl)) as (y & Y & B). exists y. split; [assumption|]. split; [now apply int_bool|].
    intros z H. injection H as <-. now rewrite B.
Qed.
Lemma not_ok : forall st a0 t n d, wf st -> get st a0 = Some (mkVar t n d) -> is_int t || is_bool t = true ->
  made extends st (var_not cp st a0) t n (g1 st a0 (F1 Not t t)).
Proof.
  intros st a0 t n d W G I. eapply unary_ok; eauto.
  - intros. now apply ir_not.
  - intros. eapply F1_range; eauto.
  - intros x _ ->. pose proof (lit_range _ _ _ _ _ W G) as A. pose proof (ir_not fop t x I A) as H.
    cbn [ir] in H. eexists. split; [reflexivity|]. rewrite lxor_ones by assumption.
    split; [intros ->; cbn [width] in *; change (2 ^ 1) with 2; lia|].
    intros z Z. unfold F1 in Z. rewrite <- H in Z. injection Z as <-.
    rewrite lxor_ones by assumption. symmetry. apply wrap_small. lia.
Qed.
Lemma abs_ok : forall st a0 t n d, wf st -> get st a0 = Some (mkVar t n d) -> is_int t = true ->
  (forall x, cp = true -> d = Lit x -> fold1_ok Abs t (num t x)) ->
  made extends st (var_abs fop cp st a0) t n (g1 st a0 (F1 Abs t t)).
Proof.
  intros st a0 t n d W G I L. unfold var_abs, with1. rewrite (check_one _ _ _ W G), G. cbn [obind i_simplify i_literal v_ty v_size i_ty].
  destruct (is_literal (mkVar t n d) && cp && is_literal (mkVar t n d)) eqn:S.
  - apply andb_prop in S as [S S1]. apply andb_prop in S as [_ S2]. destruct (is_literal_desc _ _ _ S1) as [x ->].
    destruct (fold_abs fop t x I (lit_range _ _ _ _ _ W G)) as [Q _]. destruct (Q (L x S2 eq_refl)) as (y & Y & B).
    unfold eval_literal, lit_of. cbn [v_desc]. rewrite Y. cbn [obind i_ty i_size].
    eapply made_ext; [apply made_literal; auto; [apply (wf_get _ _ _ W G)|now apply int_bool]|].
    intros l z H. apply g1_inv in H as (a & V & H). rewrite (value_literal _ _ _ _ x l G eq_refl) in V.
    injection V as <-. injection H as <-. cbn beta. now rewrite B.
  - destruct (is_uint t) eqn:U.
    + exists st, a0. split; [reflexivity|]. split; [assumption|]. split; [apply extends_refl|]. split; [now exists d|].
      intros l x H. apply g1_inv in H as (a & V & H). rewrite V. pose proof (wf_range _ _ _ _ _ _ _ W G V) as A.
      injection H as <-. destruct (int_cases t I) as [[? ?]|[S' _]]; [congruence|].
      rewrite Z.abs_eq by (rewrite num_unsigned by assumption; lia). now rewrite bits_num.
    + unfold mk1. cbn [i_ty i_size]. eapply leaf_node1; eauto.
      * intros. apply ir_abs; [|assumption]. destruct (int_cases t I) as [[? ?]|[? ?]]; congruence.
      * intros. eapply F1_range; eauto.
Qed.

(** *** Two operands *)
Section Binary.
Variables (st : store) (a0 a1 : nat) (t : ty) (n0 n1 : N) (d0 d1 : desc).
Hypothesis W : wf st.
Hypothesis G0 : get st a0 = Some (mkVar t n0 d0).
Hypothesis G1 : get st a1 = Some (mkVar t n1 d1).
Hypothesis C : compat n0 n1.
Local Notation n := (N.max n0 n1).

Lemma sizes2 : (n0 = n \/ n0 = 1) /\ (n1 = n \/ n1 = 1) /\ 1 <= n.
Proof. apply compat_sizes; [apply (wf_get _ _ _ W G0)|apply (wf_get _ _ _ W G1)|exact C]. Qed.

Lemma lane2 : forall F l x, g2 st a0 a1 F l = Some x ->
  exists a b, value st a0 l = Some a /\ value st a1 l = Some b /\ a < 2 ^ width t /\ b < 2 ^ width t /\ F a b = Some x /\
    (forall y, d0 = Lit y -> a = y) /\ (forall y, d1 = Lit y -> b = y) /\ (a0 = a1 -> a = b).
Proof.
  intros F l x H. apply g2_inv in H as (a & b & V0 & V1 & H). exists a, b.
  split; [assumption|]. split; [assumption|]. split; [apply (wf_range _ _ _ _ _ _ _ W G0 V0)|]. split; [apply (wf_range _ _ _ _ _ _ _ W G1 V1)|].
  split; [assumption|]. split; [|split].
  - intros y D. pose proof G0 as G. rewrite D in G. rewrite (value_literal _ _ _ _ y l G eq_refl) in V0. now injection V0.
  - intros y D. pose proof G1 as G. rewrite D in G. rewrite (value_literal _ _ _ _ y l G eq_refl) in V1. now injection V1.
  - intros E. rewrite E in V0. congruence.
Qed.

(** Leaves with the side conditions of the context at hand *)
Definition fits2 (F : N -> N -> option N) (Q : N -> N -> N -> Prop) : Prop :=
  forall a b x, a < 2 ^ width t -> b < 2 ^ width t -> F a b = Some x ->
    (forall y, d0 = Lit y -> a = y) -> (forall y, d1 = Lit y -> b = y) -> (a0 = a1 -> a = b) -> Q a b x.
Lemma left2 : forall F, fits2 F (fun a _ x => x = a) -> made kept st (resize uniq st a0 n) t n (g2 st a0 a1 F).
Proof.
  intros F H. destruct sizes2 as (S0 & S1 & N). apply leaf_resize with (n := n0) (d := d0); auto.
  intros l x E. apply lane2 in E as (a & b & V0 & V1 & A & B & E & L0 & L1 & L2). rewrite V0. f_equal. symmetry. apply (H a b x); auto.
Qed.
Lemma right2 : forall F, fits2 F (fun _ b x => x = b) -> made kept st (resize uniq st a1 n) t n (g2 st a0 a1 F).
Proof.
  intros F H. destruct sizes2 as (S0 & S1 & N). apply leaf_resize with (n := n1) (d := d1); auto.
  intros l x E. apply lane2 in E as (a & b & V0 & V1 & A & B & E & L0 & L1 & L2). rewrite V1. f_equal. symmetry. apply (H a b x); auto.
Qed.
Lemma const2 : forall F rt y, (rt = Bool -> y < 2) -> fits2 F (fun _ _ x => x = wrap rt y) ->
  made kept st (literal st rt y n) rt n (g2 st a0 a1 F).
Proof.
  intros F rt y Y H. destruct sizes2 as (S0 & S1 & N). eapply leaf_literal; eauto.
  intros l x E. apply lane2 in E as (a & b & V0 & V1 & A & B & E & L0 & L1 & L2). apply (H a b x); auto.
Qed.
Lemma node2 : forall k rt F, (forall a b, a < 2 ^ width t -> b < 2 ^ width t -> ir fop k rt [t; t] [a; b] = F a b) ->
  (forall a b x, a < 2 ^ width t -> b < 2 ^ width t -> F a b = Some x -> x < 2 ^ width rt) ->
  made kept st (node st k rt n [a0; a1]) rt n (g2 st a0 a1 F).
Proof.
  intros k rt F E R. destruct sizes2 as (S0 & S1 & N). apply made_kept. eapply leaf_node2; eauto; tauto.
Qed.
Lemma fold2 : forall F rt r y i, i_ty i = rt -> i_size i = n -> r = Ok y -> (rt = Bool -> y < 2) ->
  fits2 F (fun _ _ x => x = wrap rt y) -> made kept st (eval_literal st i r) rt n (g2 st a0 a1 F).
Proof.
  intros F rt r y i I1 I2 -> Y H. unfold eval_literal. cbn [obind]. rewrite I1, I2. now apply const2.
Qed.

Local Notation simp := ((is_literal (mkVar t n0 d0) || is_literal (mkVar t n1 d1) || Nat.eqb a0 a1) && cp).
Local Notation lits := (is_literal (mkVar t n0 d0) && is_literal (mkVar t n1 d1)).
Definition info2 := mkInfo t n simp lits.
Lemma check2 : check cp st [a0; a1] = Ok info2.
Proof. apply (check_two _ _ _ _ _ W G0 G1 C). Qed.
Lemma with2_eq : forall f, with2 cp st a0 a1 f = f info2 (mkVar t n0 d0) (mkVar t n1 d1).
Proof. intros. unfold with2. now rewrite check2, G0, G1. Qed.
Lemma lits_inv : lits = true -> exists x y, d0 = Lit x /\ d1 = Lit y /\ x < 2 ^ width t /\ y < 2 ^ width t.
Proof.
  intros H. apply andb_prop in H as [H0 H1]. destruct (is_literal_desc _ _ _ H0) as [x D0].
  destruct (is_literal_desc _ _ _ H1) as [y D1]. exists x, y. repeat split; auto.
  - pose proof G0 as G. rewrite D0 in G. eapply lit_range; eauto.
  - pose proof G1 as G. rewrite D1 in G. eapply lit_range; eauto.
Qed.
Lemma simp_cp : simp = true -> cp = true.
Proof. intros H. now apply andb_prop in H. Qed.

Definition litok2 (k : kind) : Prop :=
  cp = true -> forall x y, d0 = Lit x -> d1 = Lit y -> fold2_ok k t (num t x) (num t y).
Lemma frame2 : forall k rt ev F alt,
  (forall a b, a < 2 ^ width t -> b < 2 ^ width t -> ir fop k rt [t; t] [a; b] = F a b) ->
  (forall a b x, a < 2 ^ width t -> b < 2 ^ width t -> F a b = Some x -> x < 2 ^ width rt) ->
  (forall x y, cp = true -> d0 = Lit x -> d1 = Lit y -> x < 2 ^ width t -> y < 2 ^ width t ->
     exists z, ev t x y = Ok z /\ (rt = Bool -> z < 2) /\ forall r, F x y = Some r -> r = wrap rt z) ->
  (cp = true -> lits = false -> made kept st alt rt n (g2 st a0 a1 F)) ->
  made kept st (if simp then if lits then
      eval_literal st (mkInfo rt n simp lits) (ev t (lit_of (mkVar t n0 d0)) (lit_of (mkVar t n1 d1))) else alt
    else node st k rt n [a0; a1]) rt n (g2 st a0 a1 F).
Proof.
  intros k rt ev F alt E R L A. destruct simp eqn:S; [|now apply node2]. pose proof (simp_cp S) as CP.
  destruct lits eqn:Q; [|auto]. destruct (lits_inv Q) as (x & y & D0 & D1 & X & Y).
  destruct (L x y CP D0 D1 X Y) as (z & Z & B & P).
  apply fold2 with (y := z); auto.
  - unfold lit_of. cbn [v_desc]. now rewrite D0, D1.
  - intros a b r _ _ H L0 L1 _. rewrite (L0 x D0), (L1 y D1) in H. auto.
Qed.
Lemma frame2_int : forall k ev alt, is_int t = true ->
  (forall a b, a < 2 ^ width t -> b < 2 ^ width t -> ir fop k t [t; t] [a; b] = F2 k t t a b) ->
  (forall x y, x < 2 ^ width t -> y < 2 ^ width t -> fold2_ok k t (num t x) (num t y) ->
     exists z, ev t x y = Ok z /\ forall r, spec2 k t (num t x) (num t y) = Some r -> wrap t z = bits t r) ->
  litok2 k ->
  (cp = true -> lits = false -> made kept st alt t n (g2 st a0 a1 (F2 k t t))) ->
  made kept st (if simp then if lits then
      eval_literal st (mkInfo t n simp lits) (ev t (lit_of (mkVar t n0 d0)) (lit_of (mkVar t n1 d1))) else alt
    else node st k t n [a0; a1]) t n (g2 st a0 a1 (F2 k t t)).
Proof.
  intros k ev alt I E F L A. apply frame2; auto.
  - intros. eapply F2_range; eauto.
  - intros x y CP D0 D1 X Y. destruct (F x y X Y (L CP x y D0 D1)) as (z & Z & P). exists z.
    split; [assumption|]. split; [now apply int_bool|]. intros r H. unfold F2 in H.
    destruct (spec2 k t (num t x) (num t y)) as [q|]; [|discriminate]. injection H as <-. symmetry. auto.
Qed.
End Binary.

Lemma bits_0 : forall t, bits t 0 = 0.
Proof. now intros []. Qed.
Lemma F2_some : forall k t rt a b x, F2 k t rt a b = Some x -> exists z, spec2 k t (num t a) (num t b) = Some z /\ x = bits rt z.
Proof. unfold F2. intros k t rt a b x H. destruct (spec2 _ _ _ _) as [z|]; [|discriminate]. injection H as <-. eauto. Qed.
Lemma num_0 : forall t, num t 0 = 0%Z.
Proof. now intros []. Qed.
Lemma num_1 : forall t, is_int t = true -> num t 1 = 1%Z.
Proof. now intros []. Qed.

Ltac open2 B := unfold B; erewrite with2_eq by eauto; cbn [info2 i_simplify i_literal i_ty i_size v_ty v_size mk2 make_zero set_ty].

Lemma some_spec : forall (A : Type) (x z : A), Some x = Some z -> z = x.
Proof. intros A x z H. now injection H. Qed.
Lemma arith_fold : forall k f t x y, (k, f) = (Add, Z.add) \/ (k, f) = (Sub, Z.sub) \/ (k, f) = (Mul, Z.mul) -> is_int t = true ->
  fold2_ok k t (num t x) (num t y) ->
  exists z, eval_arith fop k f t x y = Ok z /\ forall r, spec2 k t (num t x) (num t y) = Some r -> wrap t z = bits t r.
Proof.
  intros k f t x y K I L. destruct (fold_arith fop k f t x y I) as [Q _].
  assert (A : arith_ok t (f (num t x) (num t y))) by (destruct K as [K|[K|K]]; injection K as -> ->; exact L).
  destruct (Q A) as (z & Z & P). exists z. split; [assumption|]. intros r H.
  assert (r = f (num t x) (num t y)) as -> by (destruct K as [K|[K|K]]; injection K as -> ->; now injection H as <-). exact P.
Qed.
Lemma add_ok : forall st a0 a1 t n0 n1 d0 d1, wf st -> get st a0 = Some (mkVar t n0 d0) ->
  get st a1 = Some (mkVar t n1 d1) -> compat n0 n1 -> is_int t = true -> litok2 t d0 d1 Add ->
  made kept st (var_add fop cp uniq st a0 a1) t (N.max n0 n1) (g2 st a0 a1 (F2 Add t t)).
Proof.
  intros st a0 a1 t n0 n1 d0 d1 W G0 G1 C I L. open2 var_add.
  apply (frame2_int st a0 a1 t n0 n1 d0 d1); auto.
  - intros. now apply ir_arith with (f := Z.add); auto.
  - intros. apply arith_fold; auto.
  - intros CP NL. pose proof (int_not_float t I) as NF.
    destruct (is_any_zero (mkVar t n0 d0)) eqn:Z0.
    { apply any_zero_int in Z0; [|assumption]. eapply right2; eauto.
      intros a b x A B H L0 _ _. rewrite (L0 0 Z0) in H. unfold F2 in H. cbn [spec2 option_map] in H.
      injection H as <-. now rewrite num_0, Z.add_0_l, bits_num. }
    destruct (is_any_zero (mkVar t n1 d1)) eqn:Z1.
    { apply any_zero_int in Z1; [|assumption]. eapply left2; eauto.
      intros a b x A B H _ L1 _. rewrite (L1 0 Z1) in H. unfold F2 in H. cbn [spec2 option_map] in H.
      injection H as <-. now rewrite num_0, Z.add_0_r, bits_num. }
    eapply node2; eauto.
    + intros. now apply ir_arith with (f := Z.add); auto.
    + intros. eapply F2_range; eauto.
Qed.

Ltac leaf2 lem := eapply lem; eauto; let a := fresh "a" in let b := fresh "b" in
  intros a b ?x ?A ?B ?H ?U0 ?U1 ?UE.
Ltac leafc := eapply const2; eauto; [now apply int_bool|]; let a := fresh "a" in let b := fresh "b" in
  intros a b ?x ?A ?B ?H ?U0 ?U1 ?UE.
Ltac plain H := unfold F2 in H; cbn [spec2 option_map] in H; injection H as <-.

Lemma sub_ok : forall st a0 a1 t n0 n1 d0 d1, wf st -> get st a0 = Some (mkVar t n0 d0) ->
  get st a1 = Some (mkVar t n1 d1) -> compat n0 n1 -> is_int t = true -> litok2 t d0 d1 Sub ->
  made kept st (var_sub fop cp uniq st a0 a1) t (N.max n0 n1) (g2 st a0 a1 (F2 Sub t t)).
Proof.
  intros st a0 a1 t n0 n1 d0 d1 W G0 G1 C I L. open2 var_sub.
  assert (IR : forall a b, a < 2 ^ width t -> b < 2 ^ width t -> ir fop Sub t [t; t] [a; b] = F2 Sub t t a b).
  { intros. now apply ir_arith with (f := Z.sub); auto. }
  apply (frame2_int st a0 a1 t n0 n1 d0 d1); auto.
  - intros. apply arith_fold; auto.
  - intros CP NL. pose proof (int_not_float t I) as NF.
    destruct (is_any_zero (mkVar t n1 d1)) eqn:Z1.
    { apply any_zero_int in Z1; [|assumption]. leaf2 left2. rewrite (U1 0 Z1) in H. plain H.
      now rewrite num_0, Z.sub_0_r, bits_num. }
    destruct (Nat.eqb_spec a0 a1) as [E|E]; cbn [andb].
    + rewrite NF. cbn [negb]. leafc. plain H. rewrite (UE E), Z.sub_diag. symmetry. now destruct t.
    + eapply node2; eauto. intros. eapply F2_range; eauto.
Qed.

Lemma shl_ok : forall st a0 a1 t n0 n1 d0 d1, wf st -> get st a0 = Some (mkVar t n0 d0) ->
  get st a1 = Some (mkVar t n1 d1) -> compat n0 n1 -> is_int t = true -> litok2 t d0 d1 Shl ->
  made kept st (var_shl cp uniq st a0 a1) t (N.max n0 n1) (g2 st a0 a1 (F2 Shl t t)).
Proof.
  intros st a0 a1 t n0 n1 d0 d1 W G0 G1 C I L. unfold var_shl. open2 shift_op.
  apply (frame2_int st a0 a1 t n0 n1 d0 d1); auto.
  - intros. now apply ir_shl.
  - intros x y X Y K. now apply fold_shl.
  - intros CP NL. destruct (is_zero (mkVar t n0 d0) || is_zero (mkVar t n1 d1)) eqn:Z.
    + leaf2 left2. apply F2_some in H as (z & H & ->). cbn [spec2] in H.
      destruct (shift_defined _ _); [|discriminate]. injection H as <-.
      apply orb_prop in Z as [Z|Z]; apply lit_is_desc in Z.
      * rewrite (U0 0 Z), num_0, Z.mul_0_l. apply bits_0.
      * rewrite (U1 0 Z), num_0, Z.pow_0_r, Z.mul_1_r. now apply bits_num.
    + eapply node2; eauto. { intros. now apply ir_shl. } intros. eapply F2_range; eauto.
Qed.
Lemma shr_ok : forall st a0 a1 t n0 n1 d0 d1, wf st -> get st a0 = Some (mkVar t n0 d0) ->
  get st a1 = Some (mkVar t n1 d1) -> compat n0 n1 -> is_int t = true -> litok2 t d0 d1 Shr ->
  made kept st (var_shr cp uniq st a0 a1) t (N.max n0 n1) (g2 st a0 a1 (F2 Shr t t)).
Proof.
  intros st a0 a1 t n0 n1 d0 d1 W G0 G1 C I L. unfold var_shr. open2 shift_op.
  apply (frame2_int st a0 a1 t n0 n1 d0 d1); auto.
  - intros. now apply ir_shr.
  - intros x y X Y K. now apply fold_shr.
  - intros CP NL. destruct (is_zero (mkVar t n0 d0) || is_zero (mkVar t n1 d1)) eqn:Z.
    + leaf2 left2. apply F2_some in H as (z & H & ->). cbn [spec2] in H.
      destruct (shift_defined t (num t b)) eqn:SD; [|discriminate]. injection H as <-.
      apply orb_prop in Z as [Z|Z]; apply lit_is_desc in Z.
      * rewrite (U0 0 Z), num_0, Z.div_0_l; [apply bits_0|]. apply andb_prop in SD as [SD _].
        apply Z.leb_le in SD. apply Z.pow_nonzero; lia.
      * rewrite (U1 0 Z), num_0, Z.pow_0_r, Z.div_1_r. now apply bits_num.
    + eapply node2; eauto. { intros. now apply ir_shr. } intros. eapply F2_range; eauto.
Qed.

Lemma pow2_log : forall x, is_pow2 x = true -> x < 2 ^ 64 -> x = 2 ^ N.log2 x.
Proof.
  intros x H X. unfold is_pow2 in H. apply andb_prop in H as [H0 H1]. apply negb_true_iff, N.eqb_neq in H0.
  apply N.eqb_eq in H1.
  assert (S : sub64 x 1 = x - 1).
  { unfold sub64, u64. replace (x + 2 ^ 64 - 1) with (x - 1 + 1 * 2 ^ 64) by lia.
    rewrite N.mod_add by discriminate. apply N.mod_small. lia. }
  rewrite S in H1. clear S. pose proof (N.log2_spec x ltac:(lia)) as [A B]. rewrite N.pow_succ_r' in B.
  destruct (N.eq_dec x (2 ^ N.log2 x)) as [E|E]; [assumption|exfalso].
  assert (T1 : N.testbit x (N.log2 x) = true) by now apply N.bit_log2.
  assert (L : N.log2 (x - 1) = N.log2 x). { apply N.log2_unique; [lia|]. rewrite N.pow_succ_r'. lia. }
  assert (T2 : N.testbit (x - 1) (N.log2 x) = true).
  { rewrite <- L. apply N.bit_log2. pose proof (N.pow_nonzero 2 (N.log2 x)). lia. }
  assert (T : N.testbit (N.land x (x - 1)) (N.log2 x) = true) by now rewrite N.land_spec, T1, T2.
  rewrite H1, N.bits_0 in T. discriminate.
Qed.
Lemma log2_64_ok : forall x, x <> 0 -> x < 2 ^ 64 -> log2_64 x = N.log2 x.
Proof.
  intros x P X. unfold log2_64. destruct (ctlz_fact 64 x) as (R & Z & O). change (N.of_nat 64) with 64 in *.
  set (r := ctlz 64 x) in *. clearbody r. pose proof (N.bit_log2 x P) as T.
  assert (LX : N.log2 x < 64) by (apply N.log2_lt_pow2; lia).
  assert (r < 64). { destruct (N.lt_ge_cases r 64); [assumption|]. rewrite Z in T by lia. discriminate. }
  specialize (O ltac:(assumption)).
  destruct (N.lt_trichotomy (N.log2 x) (63 - r)) as [Q|[Q|Q]].
  - rewrite N.bits_above_log2 in O by lia. discriminate.
  - auto.
  - rewrite Z in T by lia. discriminate.
Qed.

Lemma width_le : forall t, width t <= 64.
Proof. intros []; vm_compute; discriminate. Qed.
Lemma pow_width : forall t, 2 ^ width t <= 2 ^ 64.
Proof. intros. apply N.pow_le_mono_r; [discriminate|apply width_le]. Qed.

Lemma value_extends : forall st st' h v l, extends st st' -> get st h = Some v -> value st' h l = value st h l.
Proof. intros st st' h v l [s ->] G. eapply value_app; eauto. Qed.
Lemma get_extends : forall st st' h v, extends st st' -> get st h = Some v -> get st' h = Some v.
Proof. intros st st' h v [s ->] G. now apply get_app. Qed.

(** A fresh literal, and what can be done with it *)
Lemma fresh_literal : forall st t x n, wf st -> 1 <= n -> is_int t = true ->
  exists st' r, literal st t x n = Ok (st', r) /\ wf st' /\ extends st st' /\ get st' r = Some (mkVar t n (Lit (wrap t x))) /\
    forall h v, get st h = Some v -> r <> h.
Proof.
  intros st t x n W N I. destruct (made_literal fop st t x n W N (int_bool t x I)) as (st' & r & E & W' & X & H & V).
  exists st', r. do 3 (split; [assumption|]). unfold literal in E. destruct (N.eqb_spec n 0); [lia|].
  rewrite (int_not_bool t I) in E. injection E as <- <-. split; [apply get_new|].
  intros h v G. apply get_lt in G. lia.
Qed.

Lemma shift_leaf : forall k sh, (k, sh) = (Shl, var_shl cp uniq) \/ (k, sh) = (Shr, var_shr cp uniq) ->
  forall st h t m d n p i f, wf st -> get st h = Some (mkVar t m d) -> is_int t = true ->
  is_literal (mkVar t m d) = false -> (m = n \/ m = 1) -> 1 <= n -> i_ty i = t -> i_size i = n ->
  is_pow2 p = true -> p < 2 ^ width t ->
  (forall l x, f l = Some x -> exists a, value st h l = Some a /\ F2 k t t a (N.log2 p) = Some x) ->
  made kept st (shift_by sh st i h p) t n f.
Proof.
  intros k sh K st h t m d n p i f W G I NL S N I1 I2 P X H. unfold shift_by. rewrite I1, I2.
  pose proof (pow_width t) as PW. assert (PN : p <> 0) by (intros ->; discriminate).
  rewrite log2_64_ok by lia.
  destruct (fresh_literal st t (N.log2 p) n W N I) as (st' & r & -> & W' & E & G' & NE). cbn [obind fst snd].
  assert (LW : N.log2 p < width t) by (apply N.log2_lt_pow2; lia).
  assert (WR : wrap t (N.log2 p) = N.log2 p).
  { apply wrap_small. pose proof (N.pow_gt_lin_r 2 (width t) ltac:(lia)). lia. }
  rewrite WR in G'.
  eapply made_trans; [exact E|]. pose proof (get_extends _ _ _ _ E G) as G1.
  assert (C : compat m n) by (unfold compat; tauto). assert (MX : N.max m n = n) by lia.
  assert (LO : forall k, litok2 t d (Lit (N.log2 p)) k) by (intros k0 _ x y D; rewrite D in NL; discriminate).
  assert (M : made kept st' (sh st' h r) t (N.max m n) (g2 st' h r (F2 k t t))).
  { destruct K as [K|K]; injection K as -> ->; [eapply shl_ok|eapply shr_ok]; eauto. }
  rewrite MX in M. eapply made_ext; [exact M|]. intros l x HX. destruct (H l x HX) as (a & V & F).
  unfold g2. rewrite (value_extends _ _ _ _ _ E G), V. cbn [bind].
  rewrite (value_literal _ _ _ _ (N.log2 p) l G' eq_refl). exact F.
Qed.

Lemma pow2_num : forall t p, is_uint t = true -> is_pow2 p = true -> p < 2 ^ width t ->
  num t p = (2 ^ Z.of_N (N.log2 p))%Z /\ num t (N.log2 p) = Z.of_N (N.log2 p) /\
  shift_defined t (num t (N.log2 p)) = true.
Proof.
  intros t p U P X. assert (PN : p <> 0) by (intros ->; discriminate). pose proof (pow_width t).
  assert (SI : is_sint t = false) by now destruct t. assert (I : is_int t = true) by now destruct t.
  assert (LW : N.log2 p < width t) by (apply N.log2_lt_pow2; lia).
  rewrite !num_unsigned by assumption. split; [|split].
  - rewrite (pow2_log p) at 1 by (assumption || lia). rewrite N2Z.inj_pow. reflexivity.
  - reflexivity.
  - unfold shift_defined. apply andb_true_intro. split; [apply Z.leb_le; lia|apply Z.ltb_lt; lia].
Qed.

Lemma mul_ok : forall st a0 a1 t n0 n1 d0 d1, wf st -> get st a0 = Some (mkVar t n0 d0) ->
  get st a1 = Some (mkVar t n1 d1) -> compat n0 n1 -> is_int t = true -> litok2 t d0 d1 Mul ->
  made kept st (var_mul fop cp fast uniq st a0 a1) t (N.max n0 n1) (g2 st a0 a1 (F2 Mul t t)).
Proof.
  intros st a0 a1 t n0 n1 d0 d1 W G0 G1 C I L. open2 var_mul.
  assert (IR : forall a b, a < 2 ^ width t -> b < 2 ^ width t -> ir fop Mul t [t; t] [a; b] = F2 Mul t t a b).
  { intros. now apply ir_arith with (f := Z.mul); auto. }
  apply (frame2_int st a0 a1 t n0 n1 d0 d1); auto.
  - intros. apply arith_fold; auto 6.
  - intros CP NL. pose proof (int_not_float t I) as NF. rewrite I. cbn [orb]. rewrite !andb_true_r.
    destruct (sizes2 _ _ _ _ _ _ _ _ W G0 G1 C) as (S0 & S1 & N).
    destruct (is_one (mkVar t n0 d0) || is_any_zero (mkVar t n1 d1)) eqn:Z1.
    { leaf2 right2. plain H. apply orb_prop in Z1 as [Z1|Z1].
      - apply is_one_desc in Z1; [|assumption]. rewrite (U0 1 Z1), num_1 by assumption. now rewrite Z.mul_1_l, bits_num.
      - apply any_zero_int in Z1; [|assumption]. rewrite (U1 0 Z1), num_0, Z.mul_0_r. apply bits_0. }
    destruct (is_one (mkVar t n1 d1) || is_any_zero (mkVar t n0 d0)) eqn:Z0.
    { leaf2 left2. plain H. apply orb_prop in Z0 as [Z0|Z0].
      - apply is_one_desc in Z0; [|assumption]. rewrite (U1 1 Z0), num_1 by assumption. now rewrite Z.mul_1_r, bits_num.
      - apply any_zero_int in Z0; [|assumption]. rewrite (U0 0 Z0), num_0, Z.mul_0_l. apply bits_0. }
    destruct (is_uint t && is_literal (mkVar t n0 d0) && is_pow2 (lit_of (mkVar t n0 d0))) eqn:P0.
    { apply andb_prop in P0 as [P0 P]. apply andb_prop in P0 as [U D]. rewrite D in NL. cbn [andb] in NL.
      destruct (is_literal_desc _ _ _ D) as [p ->]. cbn [lit_of v_desc] in *. pose proof (lit_range _ _ _ _ _ W G0) as PR.
      destruct (pow2_num t p U P PR) as (E1 & E2 & E3).
      eapply (shift_leaf Shl); eauto. intros l x H. eapply lane2 in H as (a & b & V0 & V1 & A & B & H & L0 & L1 & L2); eauto.
      exists b. split; [assumption|]. plain H. rewrite (L0 p eq_refl), E1. unfold F2. cbn [spec2]. rewrite E3, E2. cbn [option_map].
      now rewrite Z.mul_comm. }
    destruct (is_uint t && is_literal (mkVar t n1 d1) && is_pow2 (lit_of (mkVar t n1 d1))) eqn:P1.
    { apply andb_prop in P1 as [P1 P]. apply andb_prop in P1 as [U D]. rewrite D, andb_true_r in NL.
      destruct (is_literal_desc _ _ _ D) as [p ->]. cbn [lit_of v_desc] in *. pose proof (lit_range _ _ _ _ _ W G1) as PR.
      destruct (pow2_num t p U P PR) as (E1 & E2 & E3).
      eapply (shift_leaf Shl); eauto. intros l x H. eapply lane2 in H as (a & b & V0 & V1 & A & B & H & L0 & L1 & L2); eauto.
      exists a. split; [assumption|]. plain H. rewrite (L1 p eq_refl), E1. unfold F2. cbn [spec2]. now rewrite E3, E2. }
    eapply node2; eauto. intros. eapply F2_range; eauto.
Qed.

Lemma div_ok : forall st a0 a1 t n0 n1 d0 d1, wf st -> get st a0 = Some (mkVar t n0 d0) ->
  get st a1 = Some (mkVar t n1 d1) -> compat n0 n1 -> is_int t = true ->
  made kept st (var_div fop cp fast uniq st a0 a1) t (N.max n0 n1) (g2 st a0 a1 (F2 Div t t)).
Proof.
  intros st a0 a1 t n0 n1 d0 d1 W G0 G1 C I. open2 var_div.
  assert (IR : forall a b, a < 2 ^ width t -> b < 2 ^ width t -> ir fop Div t [t; t] [a; b] = F2 Div t t a b).
  { intros. now apply ir_div. }
  apply (frame2_int st a0 a1 t n0 n1 d0 d1); auto.
  - intros. now apply fold_div.
  - intros ? ? ? ? ?. exact Logic.I.
  - intros CP NL. pose proof (int_not_float t I) as NF.
    destruct (sizes2 _ _ _ _ _ _ _ _ W G0 G1 C) as (S0 & S1 & N).
    destruct (is_one (mkVar t n1 d1)) eqn:Z1.
    { leaf2 left2. apply F2_some in H as (z & H & ->). cbn [spec2] in H. destruct (div_defined _ _ _); [|discriminate].
      injection H as <-. apply is_one_desc in Z1; [|assumption]. rewrite (U1 1 Z1), num_1 by assumption.
      now rewrite Z.quot_1_r, bits_num. }
    destruct (is_uint t && is_literal (mkVar t n1 d1) && is_pow2 (lit_of (mkVar t n1 d1))) eqn:P1.
    { apply andb_prop in P1 as [P1 P]. apply andb_prop in P1 as [U D]. rewrite D, andb_true_r in NL.
      destruct (is_literal_desc _ _ _ D) as [p ->]. cbn [lit_of v_desc] in *. pose proof (lit_range _ _ _ _ _ W G1) as PR.
      destruct (pow2_num t p U P PR) as (E1 & E2 & E3).
      eapply (shift_leaf Shr); eauto. intros l x H. eapply lane2 in H as (a & b & V0 & V1 & A & B & H & L0 & L1 & L2); eauto.
      exists a. split; [assumption|]. apply F2_some in H as (z & H & ->). cbn [spec2] in H. destruct (div_defined _ _ _); [|discriminate].
      injection H as <-. rewrite (L1 p eq_refl), E1. unfold F2. cbn [spec2]. rewrite E3, E2. cbn [option_map].
      rewrite Z.quot_div_nonneg; [reflexivity| |apply Z.pow_pos_nonneg; lia].
      rewrite num_unsigned by now destruct t. lia. }
    rewrite NF. cbn [andb].
    destruct (Nat.eqb_spec a0 a1) as [E|E]; cbn [andb].
    + cbn [negb]. leafc. apply F2_some in H as (z & H & ->). cbn [spec2] in H.
      rewrite (UE E) in H. destruct (div_defined t (num t b) (num t b)) eqn:DD; [|discriminate]. injection H as <-.
      unfold div_defined in DD. apply andb_prop in DD as [DD _]. apply negb_true_iff, Z.eqb_neq in DD.
      rewrite Z.quot_same by assumption. now destruct t.
    + eapply node2; eauto. intros. eapply F2_range; eauto.
Qed.

Lemma bitwise_fold : forall k f g t x y, (k, f, g) = (And, Z.land, N.land) \/ (k, f, g) = (Or, Z.lor, N.lor) \/ (k, f, g) = (Xor, Z.lxor, N.lxor) ->
  x < 2 ^ width t -> y < 2 ^ width t ->
  exists z, eval_bits g t x y = Ok z /\ (t = Bool -> z < 2) /\ forall r, F2 k t t x y = Some r -> r = wrap t z.
Proof.
  intros k f g t x y K X Y. exists (g x y). split; [reflexivity|].
  assert (E : bits t (f (num t x) (num t y)) = g x y).
  { destruct K as [K|[K|K]]; injection K as -> -> ->; [now apply bits_land|now apply bits_lor|now apply bits_lxor]. }
  split.
  - intros ->. rewrite <- E. exact (bits_lt Bool _).
  - intros r H. rewrite <- E, wrap_of_bits. apply F2_some in H as (z & H & ->).
    destruct K as [K|[K|K]]; injection K as -> -> ->; now injection H as <-.
Qed.
Lemma ir_bitwise2 : forall k t a b, In k [And; Or; Xor] -> a < 2 ^ width t -> b < 2 ^ width t ->
  ir fop k t [t; t] [a; b] = F2 k t t a b.
Proof.
  intros k t a b K A B. destruct K as [<-|[<-|[<-|[]]]].
  - apply ir_bitwise with (f := Z.land); auto.
  - apply ir_bitwise with (f := Z.lor); auto.
  - apply ir_bitwise with (f := Z.lxor); auto.
Qed.
Lemma bool_one : forall t n d, is_bool t = true -> is_one (mkVar t n d) = true -> t = Bool /\ d = Lit 1.
Proof. intros t n d B H. destruct t; try discriminate. split; [reflexivity|]. now apply is_one_desc in H. Qed.

Lemma and_ok : forall st a0 a1 t n0 n1 d0 d1, wf st -> get st a0 = Some (mkVar t n0 d0) ->
  get st a1 = Some (mkVar t n1 d1) -> compat n0 n1 ->
  made kept st (var_and cp uniq st a0 a1) t (N.max n0 n1) (g2 st a0 a1 (F2 And t t)).
Proof.
  intros st a0 a1 t n0 n1 d0 d1 W G0 G1 C. open2 var_and. rewrite ty_eqb_refl. cbn [negb andb]. rewrite andb_true_r.
  apply (frame2 st a0 a1 t n0 n1 d0 d1); auto.
  - intros. apply ir_bitwise2; cbn; auto.
  - intros. eapply F2_range; eauto.
  - intros. apply bitwise_fold with (f := Z.land); auto.
  - intros CP NL. destruct (is_zero (mkVar t n0 d0) || is_zero (mkVar t n1 d1)) eqn:Z.
    { eapply const2; eauto; [intros; lia|]. intros a b x A B H U0 U1 UE. plain H.
      transitivity 0; [|now destruct t]. rewrite bits_land by assumption.
      apply orb_prop in Z as [Z|Z]; apply lit_is_desc in Z.
      - now rewrite (U0 0 Z), N.land_0_l.
      - now rewrite (U1 0 Z), N.land_0_r. }
    destruct (is_one (mkVar t n1 d1) && is_bool t || Nat.eqb a0 a1) eqn:O1.
    { leaf2 left2. plain H. rewrite bits_land by assumption. apply orb_prop in O1 as [O1|O1].
      - apply andb_prop in O1 as [O1 TB]. destruct (bool_one _ _ _ TB O1) as [-> D]. rewrite (U1 1 D).
        cbn [width] in A. change (2 ^ 1) with 2 in A. assert (a = 0 \/ a = 1) as [-> | ->] by lia; reflexivity.
      - apply Nat.eqb_eq in O1. rewrite (UE O1). apply N.land_diag. }
    destruct (is_one (mkVar t n0 d0) && is_bool t) eqn:O0.
    { leaf2 right2. plain H. rewrite bits_land by assumption. apply andb_prop in O0 as [O0 TB].
      destruct (bool_one _ _ _ TB O0) as [-> D]. rewrite (U0 1 D).
      cbn [width] in B. change (2 ^ 1) with 2 in B. assert (b = 0 \/ b = 1) as [-> | ->] by lia; reflexivity. }
    eapply node2; eauto.
    + intros. apply ir_bitwise2; cbn; auto.
    + intros. eapply F2_range; eauto.
Qed.
Lemma or_ok : forall st a0 a1 t n0 n1 d0 d1, wf st -> get st a0 = Some (mkVar t n0 d0) ->
  get st a1 = Some (mkVar t n1 d1) -> compat n0 n1 ->
  made kept st (var_or cp uniq st a0 a1) t (N.max n0 n1) (g2 st a0 a1 (F2 Or t t)).
Proof.
  intros st a0 a1 t n0 n1 d0 d1 W G0 G1 C. open2 var_or. rewrite ty_eqb_refl. cbn [negb andb]. rewrite !andb_true_r.
  apply (frame2 st a0 a1 t n0 n1 d0 d1); auto.
  - intros. apply ir_bitwise2; cbn; auto.
  - intros. eapply F2_range; eauto.
  - intros. apply bitwise_fold with (f := Z.lor); auto.
  - intros CP NL.
    destruct (is_bool t && is_one (mkVar t n1 d1) || is_zero (mkVar t n0 d0) || Nat.eqb a0 a1) eqn:O1.
    { leaf2 right2. plain H. rewrite bits_lor by assumption. apply orb_prop in O1 as [O1|O1].
      - apply orb_prop in O1 as [O1|O1].
        + apply andb_prop in O1 as [TB O1]. destruct (bool_one _ _ _ TB O1) as [-> D]. rewrite (U1 1 D).
          cbn [width] in A. change (2 ^ 1) with 2 in A. assert (a = 0 \/ a = 1) as [-> | ->] by lia; reflexivity.
        + apply lit_is_desc in O1. now rewrite (U0 0 O1), N.lor_0_l.
      - apply Nat.eqb_eq in O1. rewrite (UE O1). apply N.lor_diag. }
    destruct (is_bool t && is_one (mkVar t n0 d0) || is_zero (mkVar t n1 d1)) eqn:O0.
    { leaf2 left2. plain H. rewrite bits_lor by assumption. apply orb_prop in O0 as [O0|O0].
      - apply andb_prop in O0 as [TB O0]. destruct (bool_one _ _ _ TB O0) as [-> D]. rewrite (U0 1 D).
        cbn [width] in B. change (2 ^ 1) with 2 in B. assert (b = 0 \/ b = 1) as [-> | ->] by lia; reflexivity.
      - apply lit_is_desc in O0. now rewrite (U1 0 O0), N.lor_0_r. }
    eapply node2; eauto.
    + intros. apply ir_bitwise2; cbn; auto.
    + intros. eapply F2_range; eauto.
Qed.
Lemma xor_ok : forall st a0 a1 t n0 n1 d0 d1, wf st -> get st a0 = Some (mkVar t n0 d0) ->
  get st a1 = Some (mkVar t n1 d1) -> compat n0 n1 ->
  made kept st (var_xor cp uniq st a0 a1) t (N.max n0 n1) (g2 st a0 a1 (F2 Xor t t)).
Proof.
  intros st a0 a1 t n0 n1 d0 d1 W G0 G1 C. open2 var_xor.
  apply (frame2 st a0 a1 t n0 n1 d0 d1); auto.
  - intros. apply ir_bitwise2; cbn; auto.
  - intros. eapply F2_range; eauto.
  - intros. apply bitwise_fold with (f := Z.lxor); auto.
  - intros CP NL.
    destruct (is_zero (mkVar t n1 d1)) eqn:O1.
    { leaf2 left2. plain H. rewrite bits_lxor by assumption. apply lit_is_desc in O1. now rewrite (U1 0 O1), N.lxor_0_r. }
    destruct (is_zero (mkVar t n0 d0)) eqn:O0.
    { leaf2 right2. plain H. rewrite bits_lxor by assumption. apply lit_is_desc in O0. now rewrite (U0 0 O0), N.lxor_0_l. }
    destruct (Nat.eqb_spec a0 a1) as [E|E].
    { eapply const2; eauto; [intros; lia|]. intros a b x A B H U0 U1 UE. plain H.
      transitivity 0; [|now destruct t]. rewrite bits_lxor by assumption. rewrite (UE E). apply N.lxor_nilpotent. }
    eapply node2; eauto.
    + intros. apply ir_bitwise2; cbn; auto.
    + intros. eapply F2_range; eauto.
Qed.

Lemma mod_ok : forall st a0 a1 t n0 n1 d0 d1, wf st -> get st a0 = Some (mkVar t n0 d0) ->
  get st a1 = Some (mkVar t n1 d1) -> compat n0 n1 -> is_int t = true ->
  made kept st (var_mod cp uniq st a0 a1) t (N.max n0 n1) (g2 st a0 a1 (F2 Mod t t)).
Proof.
  intros st a0 a1 t n0 n1 d0 d1 W G0 G1 C I. unfold var_mod. erewrite check2 by eauto. rewrite G0, G1.
  cbn [obind info2 i_simplify i_literal i_ty i_size v_ty v_size mk2].
  destruct (sizes2 _ _ _ _ _ _ _ _ W G0 G1 C) as (S0 & S1 & N).
  assert (IR : forall a b, a < 2 ^ width t -> b < 2 ^ width t -> ir fop Mod t [t; t] [a; b] = F2 Mod t t a b) by (intros; now apply ir_mod).
  match goal with |- context [if ?c then eval_literal _ _ _ else _] => destruct c eqn:Q end.
  { apply andb_prop in Q as [_ Q]. destruct (lits_inv _ _ _ _ _ _ _ _ W G0 G1 Q) as (x & y & D0 & D1 & X & Y).
    destruct (fold_mod t x y I X Y) as (z & Z & P).
    apply (fold2 st a0 a1 t n0 n1 d0 d1 W G0 G1 C) with (y := z); auto.
    - unfold lit_of. cbn [v_desc]. now rewrite D0, D1.
    - now apply int_bool.
    - intros a b r _ _ H L0 L1 _. rewrite (L0 x D0), (L1 y D1) in H. apply F2_some in H as (q & H & ->). symmetry. auto. }
  destruct (is_uint t && is_literal (mkVar t n1 d1) && is_pow2 (lit_of (mkVar t n1 d1))) eqn:P1.
  { apply andb_prop in P1 as [P1 P]. apply andb_prop in P1 as [U D].
    destruct (is_literal_desc _ _ _ D) as [p ->]. cbn [lit_of v_desc] in *. pose proof (lit_range _ _ _ _ _ W G1) as PR.
    destruct (pow2_num t p U P PR) as (E1 & E2 & E3).
    destruct (fresh_literal st t (p - 1) (N.max n0 n1) W N I) as (st' & r & -> & W' & E & G' & NE). cbn [obind fst snd].
    eapply made_trans; [exact E|]. pose proof (get_extends _ _ _ _ E G0) as G0'.
    assert (MX : N.max n0 (N.max n0 n1) = N.max n0 n1) by lia.
    assert (C' : compat n0 (N.max n0 n1)) by (unfold compat; lia).
    pose proof (and_ok st' a0 r t n0 _ _ _ W' G0' G' C') as M. rewrite MX in M.
    eapply made_ext; [exact M|]. intros l x HX.
    eapply lane2 in HX as (a & b & V0 & V1 & A & B & H & L0 & L1 & L2); eauto.
    unfold g2. rewrite (value_extends _ _ _ _ _ E G0), V0. cbn [bind].
    rewrite (value_literal _ _ _ _ _ l G' eq_refl). cbn [bind].
    apply F2_some in H as (z & H & ->). cbn [spec2] in H. destruct (div_defined _ _ _); [|discriminate]. injection H as <-.
    rewrite (L1 p eq_refl), E1. unfold F2. cbn [spec2 option_map]. do 2 f_equal.
    rewrite wrap_small by lia. assert (SI : is_sint t = false) by now destruct t.
    rewrite !num_unsigned by assumption. assert (PN : p <> 0) by (intros ->; discriminate).
    pose proof (pow_width t). pose proof (pow2_log p P ltac:(lia)) as PL.
    rewrite N2Z.inj_sub by lia.
    replace (Z.of_N p - Z.of_N 1)%Z with (Z.ones (Z.of_N (N.log2 p))).
    2:{ rewrite Z.ones_equiv. rewrite PL at 2. rewrite N2Z.inj_pow. lia. }
    rewrite Z.land_ones by lia. symmetry. apply Z.rem_mod_nonneg; [lia|apply Z.pow_pos_nonneg; lia]. }
  destruct (is_literal (mkVar t n1 d1) && is_one (mkVar t n1 d1)) eqn:O.
  { apply andb_prop in O as [_ O]. apply is_one_desc in O; [|now apply int_not_float].
    leafc. apply F2_some in H as (z & H & ->). cbn [spec2] in H. destruct (div_defined _ _ _); [|discriminate]. injection H as <-.
    rewrite (U1 1 O), num_1, Z.rem_1_r by assumption. now destruct t. }
  eapply node2; eauto. intros. eapply F2_range; eauto.
Qed.

Definition wide_lits (t : ty) (d0 d1 : desc) : Prop :=
  cp = true -> forall x y, d0 = Lit x -> d1 = Lit y -> 32 <= width t.
Lemma mul_hi_ok : forall st a0 a1 t n0 n1 d0 d1, wf st -> get st a0 = Some (mkVar t n0 d0) ->
  get st a1 = Some (mkVar t n1 d1) -> compat n0 n1 -> is_int t = true -> wide_lits t d0 d1 ->
  made kept st (var_mul_hi cp uniq st a0 a1) t (N.max n0 n1) (g2 st a0 a1 (F2 MulHi t t)).
Proof.
  intros st a0 a1 t n0 n1 d0 d1 W G0 G1 C I L. open2 var_mul_hi.
  assert (IR : forall a b, a < 2 ^ width t -> b < 2 ^ width t -> ir fop MulHi t [t; t] [a; b] = F2 MulHi t t a b) by (intros; now apply ir_mul_hi).
  pose proof (zw_pos t) as ZP. unfold zw in ZP.
  apply (frame2 st a0 a1 t n0 n1 d0 d1); auto.
  - intros. eapply F2_range; eauto.
  - intros x y CP D0 D1 X Y. eexists. split; [apply fold_mul_hi; eauto|]. split; [now apply int_bool|].
    intros r H. plain H. now rewrite wrap_of_bits.
  - intros CP NL. destruct (is_zero (mkVar t n0 d0)) eqn:O0.
    { apply lit_is_desc in O0. leaf2 left2. plain H. rewrite (U0 0 O0), num_0, Z.mul_0_l, Z.div_0_l by lia. apply bits_0. }
    destruct (is_zero (mkVar t n1 d1)) eqn:O1.
    { apply lit_is_desc in O1. leaf2 right2. plain H. rewrite (U1 0 O1), num_0, Z.mul_0_r, Z.div_0_l by lia. apply bits_0. }
    eapply node2; eauto. intros. eapply F2_range; eauto.
Qed.

Lemma type_bounds : forall t a, is_int t = true -> a < 2 ^ width t ->
  (num t (type_min t) <= num t a <= num t (type_max t))%Z.
Proof.
  intros t a I A. pose proof (num_range t a A) as R.
  destruct t; try discriminate; unfold zw in R; cbn [is_sint width] in R;
    match goal with |- (?x <= ?w <= ?y)%Z => let u := eval vm_compute in x in let v := eval vm_compute in y in change (u <= w <= v)%Z end;
    match type of R with (?x <= ?w < ?y)%Z => let u := eval vm_compute in x in let v := eval vm_compute in y in change (u <= w < v)%Z in R end; lia.
Qed.
Lemma min_ok : forall st a0 a1 t n0 n1 d0 d1, wf st -> get st a0 = Some (mkVar t n0 d0) ->
  get st a1 = Some (mkVar t n1 d1) -> compat n0 n1 -> is_int t = true ->
  made kept st (var_min cp uniq st a0 a1) t (N.max n0 n1) (g2 st a0 a1 (F2 Min t t)).
Proof.
  intros st a0 a1 t n0 n1 d0 d1 W G0 G1 C I. unfold var_min. open2 minmax. rewrite (int_not_float t I). cbn [negb andb].
  assert (IR : forall a b, a < 2 ^ width t -> b < 2 ^ width t -> ir fop Min t [t; t] [a; b] = F2 Min t t a b)
    by (intros; apply ir_minmax with (f := Z.min); auto).
  apply (frame2 st a0 a1 t n0 n1 d0 d1); auto.
  - intros. eapply F2_range; eauto.
  - intros x y CP D0 D1 X Y. destruct (fold_minmax t x y I X Y) as [E _]. eexists. split; [exact E|]. split; [now apply int_bool|].
    intros r H. plain H. now rewrite wrap_of_bits.
  - intros CP NL. destruct (Nat.eqb_spec a0 a1) as [E|E].
    { leaf2 left2. plain H. now rewrite (UE E), Z.min_id, bits_num. }
    destruct (is_max (mkVar t n0 d0) || is_min (mkVar t n1 d1)) eqn:M1.
    { leaf2 right2. plain H. rewrite Z.min_r; [now apply bits_num|]. pose proof (type_bounds t a I A). pose proof (type_bounds t b I B).
      apply orb_prop in M1 as [M|M]; apply lit_is_desc in M; cbn [v_ty] in M; [rewrite (U0 _ M)|rewrite (U1 _ M)]; tauto. }
    destruct (is_max (mkVar t n1 d1) || is_min (mkVar t n0 d0)) eqn:M0.
    { leaf2 left2. plain H. rewrite Z.min_l; [now apply bits_num|]. pose proof (type_bounds t a I A). pose proof (type_bounds t b I B).
      apply orb_prop in M0 as [M|M]; apply lit_is_desc in M; cbn [v_ty] in M; [rewrite (U1 _ M)|rewrite (U0 _ M)]; tauto. }
    eapply node2; eauto. intros. eapply F2_range; eauto.
Qed.
Lemma max_ok : forall st a0 a1 t n0 n1 d0 d1, wf st -> get st a0 = Some (mkVar t n0 d0) ->
  get st a1 = Some (mkVar t n1 d1) -> compat n0 n1 -> is_int t = true ->
  made kept st (var_max cp uniq st a0 a1) t (N.max n0 n1) (g2 st a0 a1 (F2 Max t t)).
Proof.
  intros st a0 a1 t n0 n1 d0 d1 W G0 G1 C I. unfold var_max. open2 minmax. rewrite (int_not_float t I). cbn [negb andb].
  assert (IR : forall a b, a < 2 ^ width t -> b < 2 ^ width t -> ir fop Max t [t; t] [a; b] = F2 Max t t a b)
    by (intros; apply ir_minmax with (f := Z.max); auto).
  apply (frame2 st a0 a1 t n0 n1 d0 d1); auto.
  - intros. eapply F2_range; eauto.
  - intros x y CP D0 D1 X Y. destruct (fold_minmax t x y I X Y) as [_ E]. eexists. split; [exact E|]. split; [now apply int_bool|].
    intros r H. plain H. now rewrite wrap_of_bits.
  - intros CP NL. destruct (Nat.eqb_spec a0 a1) as [E|E].
    { leaf2 left2. plain H. now rewrite (UE E), Z.max_id, bits_num. }
    destruct (is_min (mkVar t n0 d0) || is_max (mkVar t n1 d1)) eqn:M1.
    { leaf2 right2. plain H. rewrite Z.max_r; [now apply bits_num|]. pose proof (type_bounds t a I A). pose proof (type_bounds t b I B).
      apply orb_prop in M1 as [M|M]; apply lit_is_desc in M; cbn [v_ty] in M; [rewrite (U0 _ M)|rewrite (U1 _ M)]; tauto. }
    destruct (is_min (mkVar t n1 d1) || is_max (mkVar t n0 d0)) eqn:M0.
    { leaf2 left2. plain H. rewrite Z.max_l; [now apply bits_num|]. pose proof (type_bounds t a I A). pose proof (type_bounds t b I B).
      apply orb_prop in M0 as [M|M]; apply lit_is_desc in M; cbn [v_ty] in M; [rewrite (U1 _ M)|rewrite (U0 _ M)]; tauto. }
    eapply node2; eauto. intros. eapply F2_range; eauto.
Qed.

(** Masking a value of another type with a boolean *)
Definition mask_and (a m : N) : option N := Some (if m =? 1 then a else 0).
Definition mask_or (t : ty) (a m : N) : option N := Some (if m =? 1 then 2 ^ width t - 1 else a).
Lemma ones_lt : forall t, 2 ^ width t - 1 < 2 ^ width t.
Proof. intros. pose proof (N.pow_nonzero 2 (width t)). lia. Qed.
Lemma lor_ones : forall t a, a < 2 ^ width t -> N.lor a (2 ^ width t - 1) = 2 ^ width t - 1.
Proof.
  intros t a A. rewrite N.sub_1_r, <- N.ones_equiv. destruct (N.eq_dec a 0) as [->|NZ]; [apply N.lor_0_l|].
  apply N.lor_ones_low. apply N.log2_lt_pow2; lia.
Qed.
Lemma mask_and_ok : forall st a0 a1 t n0 n1 d0 d1, wf st -> get st a0 = Some (mkVar t n0 d0) ->
  get st a1 = Some (mkVar Bool n1 d1) -> compat n0 n1 -> t <> Bool ->
  made kept st (var_and cp uniq st a0 a1) t (N.max n0 n1) (g2 st a0 a1 mask_and).
Proof.
  intros st a0 a1 t n0 n1 d0 d1 W G0 G1 C NB. unfold var_and, with2. erewrite check_two by eauto. rewrite G0, G1.
  cbn [obind i_simplify i_literal i_ty i_size v_ty v_size mk2 make_zero].
  assert (ty_eqb t Bool = false) as -> by now destruct t. cbn [is_bool negb andb]. rewrite !andb_false_r, !andb_true_r.
  destruct (compat_sizes _ _ (wf_get _ _ _ W G0) (wf_get _ _ _ W G1) C) as (S0 & S1 & N). cbn [v_size] in S0, S1, N.
  assert (NE : Nat.eqb a0 a1 = false) by (apply Nat.eqb_neq; intros ->; rewrite G0 in G1; injection G1 as -> _ _; now apply NB).
  rewrite NE, !orb_false_r. assert (is_bool t = false) as -> by (destruct t; congruence || reflexivity). rewrite andb_false_r.
  assert (M : made kept st (node st And t (N.max n0 n1) [a0; a1]) t (N.max n0 n1) (g2 st a0 a1 mask_and)).
  { apply made_kept. eapply leaf_node2; eauto; try tauto.
    - intros a b A B. cbn [ir]. now destruct t.
    - intros a b x A B H. injection H as <-. destruct (_ =? _); [assumption|]. apply N.neq_0_lt_0, N.pow_nonzero. lia. }
  match goal with |- made _ _ (if ?c then _ else _) _ _ _ => destruct c; [|exact M] end.
  destruct (is_zero (mkVar t n0 d0) || is_zero (mkVar Bool n1 d1)) eqn:Z.
  { apply leaf_literal; auto; [intros; lia|]. intros l y H. apply g2_inv in H as (a & b & V0 & V1 & H). injection H as <-.
    rewrite wrap_small by (apply N.neq_0_lt_0, N.pow_nonzero; lia).
    apply orb_prop in Z as [Z|Z]; apply lit_is_desc in Z; subst.
    - rewrite (value_literal _ _ _ _ 0 l G0 eq_refl) in V0. injection V0 as <-. now destruct (_ =? _).
    - rewrite (value_literal _ _ _ _ 0 l G1 eq_refl) in V1. injection V1 as <-. reflexivity. }
  destruct (is_one (mkVar Bool n1 d1)) eqn:O; [|exact M].
  apply is_one_desc in O; [|reflexivity]. subst. eapply leaf_resize; eauto.
  intros l y H. apply g2_inv in H as (a & b & V0 & V1 & H). injection H as <-.
  rewrite (value_literal _ _ _ _ 1 l G1 eq_refl) in V1. injection V1 as <-. exact V0.
Qed.
Lemma mask_or_ok : forall st a0 a1 t n0 n1 d0 d1, wf st -> get st a0 = Some (mkVar t n0 d0) ->
  get st a1 = Some (mkVar Bool n1 d1) -> compat n0 n1 -> t <> Bool ->
  made kept st (var_or cp uniq st a0 a1) t (N.max n0 n1) (g2 st a0 a1 (mask_or t)).
Proof.
  intros st a0 a1 t n0 n1 d0 d1 W G0 G1 C NB. unfold var_or, with2. erewrite check_two by eauto. rewrite G0, G1.
  cbn [obind i_simplify i_literal i_ty i_size v_ty v_size mk2 make_zero].
  assert (ty_eqb t Bool = false) as -> by now destruct t. cbn [is_bool negb andb]. rewrite !andb_false_r.
  destruct (compat_sizes _ _ (wf_get _ _ _ W G0) (wf_get _ _ _ W G1) C) as (S0 & S1 & N). cbn [v_size] in S0, S1, N.
  assert (NE : Nat.eqb a0 a1 = false) by (apply Nat.eqb_neq; intros ->; rewrite G0 in G1; injection G1 as -> _ _; now apply NB).
  rewrite NE. assert (is_bool t = false) as -> by (destruct t; congruence || reflexivity). cbn [andb orb]. rewrite orb_false_r.
  assert (M : made kept st (node st Or t (N.max n0 n1) [a0; a1]) t (N.max n0 n1) (g2 st a0 a1 (mask_or t))).
  { apply made_kept. eapply leaf_node2; eauto; try tauto.
    - intros a b A B. cbn [ir]. assert (ty_eqb t Bool = false) as -> by (destruct t; congruence || reflexivity). unfold mask_or.
      destruct (b =? 1); [now rewrite lor_ones|now rewrite N.lor_0_r].
    - intros a b x A B H. injection H as <-. destruct (_ =? _); [apply ones_lt|assumption]. }
  match goal with |- made _ _ (if ?c then _ else _) _ _ _ => destruct c; [|exact M] end.
  destruct (is_zero (mkVar Bool n1 d1)) eqn:O; [|exact M].
  apply lit_is_desc in O. subst. eapply leaf_resize; eauto.
  intros l y H. apply g2_inv in H as (a & b & V0 & V1 & H). injection H as <-.
  rewrite (value_literal _ _ _ _ 0 l G1 eq_refl) in V1. injection V1 as <-. exact V0.
Qed.

(** *** Comparisons *)
Definition FC (k : kind) (t : ty) (a b : N) : option N := Some (b2n (truth k (ordering t a b))).
Lemma b2n_lt : forall b, b2n b < 2.
Proof. now intros []. Qed.
Lemma ordering_same : forall t a, is_float t = false -> ordering t a a = Some Datatypes.Eq.
Proof. intros t a F. unfold ordering. now rewrite F, Z.compare_refl. Qed.
Lemma ordering_refl : forall t a, ordering t a a = Some Datatypes.Eq \/ ordering t a a = None.
Proof. intros t a. unfold ordering, ieee. destruct (is_float t); [|left; now rewrite Z.compare_refl]. destruct (_ || _); [now right|left; now rewrite Z.compare_refl]. Qed.
Lemma compare_gen : forall k ev same st a0 a1 t n0 n1 d0 d1, wf st -> get st a0 = Some (mkVar t n0 d0) ->
  get st a1 = Some (mkVar t n1 d1) -> compat n0 n1 ->
  (forall a b, ir fop k Bool [t; t] [a; b] = FC k t a b) ->
  (forall a b, ev t a b = Ok (b2n (truth k (ordering t a b)))) ->
  (forall n d s a, same (mkVar t n d) = Some s -> truth k (ordering t a a) = s) ->
  made kept st (compare cp k ev same st a0 a1) Bool (N.max n0 n1) (g2 st a0 a1 (FC k t)).
Proof.
  intros k ev same st a0 a1 t n0 n1 d0 d1 W G0 G1 C IR EV SM. open2 compare.
  assert (RG : forall a b x, a < 2 ^ width t -> b < 2 ^ width t -> FC k t a b = Some x -> x < 2 ^ width Bool).
  { intros a b x _ _ H. injection H as <-. apply b2n_lt. }
  apply (frame2 st a0 a1 t n0 n1 d0 d1 W G0 G1 C); auto.
  - intros x y CP D0 D1 X Y. eexists. split; [apply EV|]. split; [intros; apply b2n_lt|].
    intros r H. injection H as <-. symmetry. apply wrap_small, b2n_lt.
  - intros CP NL. destruct (Nat.eqb_spec a0 a1) as [E|E]; [|eapply node2; eauto].
    destruct (same (mkVar t n0 d0)) as [s|] eqn:S; [|eapply node2; eauto].
    destruct s; unfold make_true; cbn [i_size]; (eapply const2; eauto; [intros; lia|];
      intros a b x A B H U0 U1 UE; injection H as <-; rewrite (UE E), (SM _ _ _ _ S); reflexivity).
Qed.
Lemma compare_ok : forall k B st a0 a1 t n0 n1 d0 d1, wf st -> get st a0 = Some (mkVar t n0 d0) ->
  get st a1 = Some (mkVar t n1 d1) -> compat n0 n1 ->
  In (k, B) [(Eq, var_eq cp); (Lt, var_lt cp); (Le, var_le cp); (Gt, var_gt cp); (Ge, var_ge cp)] ->
  made kept st (B st a0 a1) Bool (N.max n0 n1) (g2 st a0 a1 (FC k t)).
Proof.
  intros k B st a0 a1 t n0 n1 d0 d1 W G0 G1 C K.
  assert (U : forall k s n d a, truth k (Some Datatypes.Eq) = true -> unless_float true (mkVar t n d) = Some s -> truth k (ordering t a a) = s).
  { intros k0 s n d a T H. unfold unless_float in H. cbn [v_ty] in H. destruct (is_float t) eqn:F; [discriminate|].
    injection H as <-. now rewrite ordering_same. }
  destruct K as [K|[K|[K|[K|[K|[]]]]]]; injection K as <- <-; eapply compare_gen; eauto.
  - intros. unfold FC. cbn [ir]. f_equal. apply ir_compare. auto.
  - intros. apply fold_cmp. auto.
  - intros. unfold FC. cbn [ir]. f_equal. apply ir_compare. auto.
  - intros. apply fold_cmp. auto.
  - intros n d s a H. injection H as <-. now destruct (ordering_refl t a) as [-> | ->].
  - intros. unfold FC. cbn [ir]. f_equal. apply ir_compare. auto 6.
  - intros. apply fold_cmp. auto 6.
  - intros. unfold FC. cbn [ir]. f_equal. apply ir_compare. auto 6.
  - intros. apply fold_cmp. auto 6.
  - intros n d s a H. injection H as <-. now destruct (ordering_refl t a) as [-> | ->].
  - intros. unfold FC. cbn [ir]. f_equal. apply ir_compare. auto 6.
  - intros. apply fold_cmp. auto 6.
Qed.
Lemma neq_ok : forall st a0 a1 t n0 n1 d0 d1, wf st -> get st a0 = Some (mkVar t n0 d0) ->
  get st a1 = Some (mkVar t n1 d1) -> compat n0 n1 -> is_float t = false ->
  made kept st (var_neq cp st a0 a1) Bool (N.max n0 n1) (g2 st a0 a1 (FC Neq t)).
Proof.
  intros st a0 a1 t n0 n1 d0 d1 W G0 G1 C F. eapply compare_gen; eauto.
  - intros. unfold FC. cbn [ir]. f_equal. now apply ir_neq.
  - intros. apply fold_neq.
  - intros n d s a H. injection H as <-. now rewrite ordering_same.
Qed.

(** *** Selection *)
Definition FS (m a b : N) : option N := Some (if m =? 1 then a else b).
Lemma compat3 : forall a b c, 1 <= a -> 1 <= b -> 1 <= c -> compat a b -> compat a c -> compat b c ->
  let n := N.max a (N.max b c) in (a = n \/ a = 1) /\ (b = n \/ b = 1) /\ (c = n \/ c = 1) /\ 1 <= n.
Proof. clear. unfold compat. intros. cbv zeta. lia. Qed.
Lemma select_ok : forall st a0 a1 a2 t n0 n1 n2 d0 d1 d2, wf st -> get st a0 = Some (mkVar Bool n0 d0) ->
  get st a1 = Some (mkVar t n1 d1) -> get st a2 = Some (mkVar t n2 d2) ->
  compat n0 n1 -> compat n0 n2 -> compat n1 n2 ->
  made kept st (var_select cp uniq st a0 a1 a2) t (N.max n0 (N.max n1 n2)) (g3 st a0 a1 a2 FS).
Proof.
  intros st a0 a1 a2 t n0 n1 n2 d0 d1 d2 W G0 G1 G2 C01 C02 C12. unfold var_select.
  erewrite check_three by eauto. rewrite G0, G1, G2. cbn [obind i_simplify i_literal i_ty i_size v_ty v_size set_ty].
  rewrite ty_eqb_refl. cbn [is_bool negb orb].
  destruct (compat3 _ _ _ (wf_get _ _ _ W G0) (wf_get _ _ _ W G1) (wf_get _ _ _ W G2) C01 C02 C12) as (S0 & S1 & S2 & N).
  cbn [v_size] in S0, S1, S2, N.
  destruct (_ && (is_one _ || Nat.eqb a1 a2)) eqn:Q1.
  { apply andb_prop in Q1 as [_ Q1]. apply leaf_resize with (n := n1) (d := d1); auto.
    intros l y H. apply g3_inv in H as (m & a & b & V0 & V1 & V2 & H). injection H as <-.
    apply orb_prop in Q1 as [Q|Q].
    - apply is_one_desc in Q; [|reflexivity]. subst. rewrite (value_literal _ _ _ _ 1 l G0 eq_refl) in V0. injection V0 as <-. exact V1.
    - apply Nat.eqb_eq in Q. subst. rewrite V1 in V2. injection V2 as <-. rewrite V1. now destruct (_ =? _). }
  destruct (_ && is_zero _) eqn:Q0.
  { apply andb_prop in Q0 as [_ Q0]. apply lit_is_desc in Q0. subst. apply leaf_resize with (n := n2) (d := d2); auto.
    intros l y H. apply g3_inv in H as (m & a & b & V0 & V1 & V2 & H). injection H as <-.
    rewrite (value_literal _ _ _ _ 0 l G0 eq_refl) in V0. injection V0 as <-. exact V2. }
  apply made_kept. eapply leaf_node3; eauto; try tauto.
  intros m a b x _ A B H. injection H as <-. now destruct (_ =? _).
Qed.

(** *** Fused multiply-add *)
Lemma fma_ok : forall st a0 a1 a2 t n0 n1 n2 d0 d1 d2, wf st -> get st a0 = Some (mkVar t n0 d0) ->
  get st a1 = Some (mkVar t n1 d1) -> get st a2 = Some (mkVar t n2 d2) ->
  compat n0 n1 -> compat n0 n2 -> compat n1 n2 -> is_int t = true ->
  (cp = true -> forall x y z, d0 = Lit x -> d1 = Lit y -> d2 = Lit z -> fold3_ok t (num t x) (num t y) (num t z)) ->
  made kept st (var_fma fop cp fast uniq st a0 a1 a2) t (N.max n0 (N.max n1 n2)) (g3 st a0 a1 a2 (F3 t)).
Proof.
  intros st a0 a1 a2 t n0 n1 n2 d0 d1 d2 W G0 G1 G2 C01 C02 C12 I L. unfold var_fma.
  erewrite check_three by eauto. rewrite G0, G1, G2. cbn [obind i_simplify i_literal i_ty i_size v_ty v_size].
  pose proof (int_not_float t I) as NF.
  destruct (compat3 _ _ _ (wf_get _ _ _ W G0) (wf_get _ _ _ W G1) (wf_get _ _ _ W G2) C01 C02 C12) as (S0 & S1 & S2 & N).
  cbn [v_size] in S0, S1, S2, N.
  assert (M : made kept st (node st Fma t (N.max n0 (N.max n1 n2)) [a0; a1; a2]) t (N.max n0 (N.max n1 n2)) (g3 st a0 a1 a2 (F3 t))).
  { apply made_kept. eapply leaf_node3; eauto; try tauto.
    - intros. now apply ir_fma.
    - intros a b c x _ _ _ H. injection H as <-. apply bits_lt. }
  match goal with |- made _ _ (if ?c then _ else _) _ _ _ => destruct c eqn:SI; [|exact M] end.
  apply andb_prop in SI as [_ CP].
  destruct (is_literal (mkVar t n0 d0) && (is_literal (mkVar t n1 d1) && is_literal (mkVar t n2 d2))) eqn:Q.
  { apply andb_prop in Q as [Q0 Q]. apply andb_prop in Q as [Q1 Q2].
    destruct (is_literal_desc _ _ _ Q0) as [x ->]. destruct (is_literal_desc _ _ _ Q1) as [y ->]. destruct (is_literal_desc _ _ _ Q2) as [z ->].
    cbn [lit_of v_desc]. destruct (fold_fma fop t x y z I) as [F _]. destruct (F (L CP x y z eq_refl eq_refl eq_refl)) as (r & E & B).
    unfold eval_literal. rewrite E. cbn [obind]. cbn [i_ty i_size]. apply leaf_literal; auto; [now apply int_bool|].
    intros l q H. apply g3_inv in H as (a & b & c & V0 & V1 & V2 & H).
    rewrite (value_literal _ _ _ _ x l G0 eq_refl) in V0. injection V0 as <-.
    rewrite (value_literal _ _ _ _ y l G1 eq_refl) in V1. injection V1 as <-.
    rewrite (value_literal _ _ _ _ z l G2 eq_refl) in V2. injection V2 as <-. injection H as <-. now rewrite B. }
  assert (FIN : forall res m f, made kept st res t m f -> (m = N.max n0 (N.max n1 n2) \/ m = 1) ->
    (forall l x, g3 st a0 a1 a2 (F3 t) l = Some x -> f l = Some x) ->
    made kept st (let! r := res in resize uniq (fst r) (snd r) (N.max n0 (N.max n1 n2))) t (N.max n0 (N.max n1 n2)) (g3 st a0 a1 a2 (F3 t))).
  { intros res m f M1 S E. eapply (made_then fop st res t m f _ (fun st r => resize uniq st r (N.max n0 (N.max n1 n2)))); [exact M1|].
    intros st' r W' K' [d H'] V'. apply leaf_resize with (n := m) (d := d); auto. }
  destruct (is_one (mkVar t n0 d0)) eqn:O0.
  { apply is_one_desc in O0; [|assumption]. subst d0. cbn [is_literal v_desc andb] in Q.
    eapply FIN; [apply add_ok with (t := t) (n0 := n1) (n1 := n2) (d0 := d1) (d1 := d2); auto| |].
    - intros _ x y -> ->. discriminate.
    - unfold compat in *. lia.
    - intros l x H. apply g3_inv in H as (a & b & c & V0 & V1 & V2 & H). injection H as <-. unfold g2. rewrite V1, V2. cbn [bind].
      rewrite (value_literal _ _ _ _ 1 l G0 eq_refl) in V0. injection V0 as <-. rewrite num_1, Z.mul_1_l by assumption. reflexivity. }
  destruct (is_one (mkVar t n1 d1)) eqn:O1.
  { apply is_one_desc in O1; [|assumption]. subst d1. cbn [is_literal v_desc andb] in Q.
    eapply FIN; [apply add_ok with (t := t) (n0 := n0) (n1 := n2) (d0 := d0) (d1 := d2); auto| |].
    - intros _ x y -> ->. discriminate.
    - unfold compat in *. lia.
    - intros l x H. apply g3_inv in H as (a & b & c & V0 & V1 & V2 & H). injection H as <-. unfold g2. rewrite V0, V2. cbn [bind].
      rewrite (value_literal _ _ _ _ 1 l G1 eq_refl) in V1. injection V1 as <-. rewrite num_1, Z.mul_1_r by assumption. reflexivity. }
  destruct (is_any_zero (mkVar t n2 d2)) eqn:O2.
  { apply any_zero_int in O2; [|assumption]. subst d2. cbn [is_literal v_desc andb] in Q. rewrite andb_true_r in Q.
    eapply FIN; [apply mul_ok with (t := t) (n0 := n0) (n1 := n1) (d0 := d0) (d1 := d1); auto| |].
    - intros _ x y -> ->. discriminate.
    - unfold compat in *. lia.
    - intros l x H. apply g3_inv in H as (a & b & c & V0 & V1 & V2 & H). injection H as <-. unfold g2. rewrite V0, V1. cbn [bind].
      rewrite (value_literal _ _ _ _ 0 l G2 eq_refl) in V2. injection V2 as <-. rewrite num_0, Z.add_0_r. reflexivity. }
  match goal with |- made _ _ (if ?c then _ else _) _ _ _ => destruct c eqn:Z01; [|exact M] end.
  cbn [obind fst snd]. apply leaf_resize with (n := n2) (d := d2); auto.
  intros l x H. apply g3_inv in H as (a & b & c & V0 & V1 & V2 & H). injection H as <-. rewrite V2.
  pose proof (wf_range _ _ _ _ _ _ _ W G2 V2) as CR.
  assert (Z : is_any_zero (mkVar t n0 d0) = true \/ is_any_zero (mkVar t n1 d1) = true).
  { apply orb_prop in Z01 as [Z|Z]; apply andb_prop in Z as [Z _]; [auto|]. now apply orb_prop in Z. }
  f_equal. symmetry. destruct Z as [Z|Z]; (apply any_zero_int in Z; [|assumption]); rewrite Z in *.
  - rewrite (value_literal _ _ _ _ 0 l G0 eq_refl) in V0. injection V0 as <-. rewrite num_0, Z.mul_0_l, Z.add_0_l. now apply bits_num.
  - rewrite (value_literal _ _ _ _ 0 l G1 eq_refl) in V1. injection V1 as <-. rewrite num_0, Z.mul_0_r, Z.add_0_l. now apply bits_num.
Qed.

(** *** Conversions between integers and booleans *)
Definition FK (t0 t : ty) (a : N) : option N :=
  Some (if is_bool t then b2n (negb (num t0 a =? 0)%Z) else bits t (num t0 a)).
Lemma FK_range : forall t0 t a x, FK t0 t a = Some x -> x < 2 ^ width t.
Proof. intros t0 t a x H. injection H as <-. destruct (is_bool t) eqn:B; [|apply bits_lt]. destruct t; try discriminate. apply b2n_lt. Qed.
Lemma ir_cast : forall t0 t a, is_float t0 = false -> is_float t = false -> ty_eqb t0 t = false -> a < 2 ^ width t0 ->
  ir fop Cast t [t0] [a] = FK t0 t a.
Proof.
  intros t0 t a F0 F NE A. cbn [ir]. rewrite F0, F. cbn [orb]. unfold FK. destruct (is_bool t) eqn:B.
  { now rewrite num_zero. }
  destruct (is_bool t0) eqn:B0.
  { destruct t0; try discriminate. cbn [width] in A. change (2 ^ 1) with 2 in A.
    assert (a = 0 \/ a = 1) as [-> | ->] by lia; now destruct t. }
  destruct (N.ltb_spec (width t) (width t0)).
  - f_equal. apply wrap_bits. unfold zw.
    assert (E : (2 ^ Z.of_N (width t0) = 2 ^ (Z.of_N (width t0) - Z.of_N (width t)) * 2 ^ Z.of_N (width t))%Z).
    { rewrite <- Z.pow_add_r by lia. f_equal. lia. }
    pose proof (num_mod t0 a A) as NM. unfold zw in NM. rewrite E in NM.
    assert (D : forall z, ((z mod (2 ^ (Z.of_N (width t0) - Z.of_N (width t)) * 2 ^ Z.of_N (width t))) mod 2 ^ Z.of_N (width t) = z mod 2 ^ Z.of_N (width t))%Z).
    { intros z. rewrite Z.mul_comm, Z.rem_mul_r by (try apply Z.pow_nonzero; try apply Z.pow_pos_nonneg; lia).
      rewrite Z.mul_comm, Z.mod_add by (apply Z.pow_nonzero; lia). apply Z.mod_mod, Z.pow_nonzero; lia. }
    rewrite <- (D (num t0 a)), NM, D. reflexivity.
  - f_equal. destruct (is_uint t0) eqn:U.
    + assert (S : is_sint t0 = false) by now destruct t0. rewrite num_unsigned by assumption.
      symmetry. replace a with (wrap t a) at 2. { symmetry. apply wrap_bits. reflexivity. }
      apply wrap_small. eapply N.lt_le_trans; [exact A|]. apply N.pow_le_mono_r; lia.
    + assert (S : is_sint t0 = true) by (destruct t0; try discriminate; reflexivity). rewrite num_signed by assumption. apply zwrap_bits.
Qed.
Lemma cast_ok : forall st a0 t0 t n d, wf st -> get st a0 = Some (mkVar t0 n d) -> is_float t0 = false -> is_float t = false ->
  made extends st (var_cast fop cp st a0 t) t n (g1 st a0 (FK t0 t)).
Proof.
  intros st a0 t0 t n d W G F0 F. unfold var_cast. rewrite G. erewrite check_one by eauto.
  cbn [obind i_simplify i_literal i_ty i_size v_ty v_size]. pose proof (wf_get _ _ _ W G) as N. cbn [v_size] in N.
  destruct (ty_eqb t0 t) eqn:T.
  { apply ty_eqb_eq in T. subst t0. exists st, a0. split; [reflexivity|]. split; [assumption|]. split; [apply extends_refl|]. split; [now exists d|].
    intros l x H. apply g1_inv in H as (a & V & H). rewrite V. pose proof (wf_range _ _ _ _ _ _ _ W G V) as A. injection H as <-. f_equal.
    destruct (is_bool t) eqn:B; [|now rewrite bits_num]. destruct t; try discriminate. cbn [width] in A. change (2 ^ 1) with 2 in A.
    assert (a = 0 \/ a = 1) as [-> | ->] by lia; reflexivity. }
  rewrite F0, F. cbn [negb andb orb]. rewrite !andb_true_r.
  set (re := ((if is_bool t0 then 0 else width t0) =? (if is_bool t then 0 else width t))).
  assert (RE : re = true -> is_bool t = false /\ width t = width t0).
  { unfold re. intros H. apply N.eqb_eq in H. destruct t0, t; try discriminate; auto. }
  assert (BC : re = true -> forall a, a < 2 ^ width t0 -> FK t0 t a = Some a).
  { intros R a A. destruct (RE R) as [B WT]. unfold FK. rewrite B. f_equal. rewrite <- (bits_num t0 a A) at 2. unfold bits. now rewrite WT. }
  destruct (is_literal (mkVar t0 n d) && cp && is_literal (mkVar t0 n d)) eqn:S.
  - apply andb_prop in S as [_ S]. destruct (is_literal_desc _ _ _ S) as [x ->]. pose proof (lit_range _ _ _ _ _ W G) as X. cbn [lit_of v_desc].
    destruct re eqn:R.
    + eapply made_ext; [apply made_literal; auto|].
      * intros ->. destruct (RE eq_refl). discriminate.
      * intros l y H. apply g1_inv in H as (a & V & H). rewrite (value_literal _ _ _ _ x l G eq_refl) in V. injection V as <-.
        rewrite (BC eq_refl x X) in H. injection H as <-. cbn beta. f_equal. apply wrap_small. destruct (RE eq_refl) as [_ ->]. exact X.
    + eapply made_ext; [apply made_literal; auto|].
      * intros ->. cbn [cast_lit is_bool]. apply b2n_lt.
      * intros l y H. apply g1_inv in H as (a & V & H). rewrite (value_literal _ _ _ _ x l G eq_refl) in V. injection V as <-.
        injection H as <-. cbn beta. f_equal. unfold cast_lit. destruct (is_bool t) eqn:B.
        -- rewrite num_zero by assumption. destruct t; try discriminate. apply wrap_small, b2n_lt.
        -- rewrite zwrap_bits. apply wrap_of_bits.
  - eapply leaf_node1; eauto.
    + intros a A. destruct re eqn:R; [|now apply ir_cast]. rewrite (BC eq_refl a A). reflexivity.
    + intros. eapply FK_range; eauto.
Qed.

(** *** Multiplication with a result of twice the width *)
Lemma wide_prod : forall t t' a b, wide t = Some t' -> a < 2 ^ width t -> b < 2 ^ width t ->
  is_int t = true /\ is_int t' = true /\ num t' (bits t' (num t a)) = num t a /\ arith_ok t' (num t a * num t b).
Proof.
  intros t t' a b H A B. destruct t; try discriminate; injection H as <-; (split; [reflexivity|]; split; [reflexivity|]).
  - pose proof (num_range I32 a A) as RA. pose proof (num_range I32 b B) as RB. cbn [is_sint width] in RA, RB.
    change (2 ^ (Z.of_N 32 - 1))%Z with 2147483648%Z in *. split.
    + apply num_bits. cbn [is_sint width]. change (2 ^ (Z.of_N 64 - 1))%Z with 9223372036854775808%Z. lia.
    + intros _. unfold fits. change (2 ^ (Z.of_N (computed_width I64) - 1))%Z with 9223372036854775808%Z. nia.
  - split.
    + apply num_bits. pose proof (num_range U32 a A) as RA. cbn [is_sint] in *. unfold zw in *. cbn [width] in *.
      change (2 ^ Z.of_N 32)%Z with 4294967296%Z in *. change (2 ^ Z.of_N 64)%Z with 18446744073709551616%Z. lia.
    + intros H. discriminate.
Qed.
Lemma mul_wide_ok : forall st a0 a1 t t' n0 n1 d0 d1, wf st -> get st a0 = Some (mkVar t n0 d0) ->
  get st a1 = Some (mkVar t n1 d1) -> compat n0 n1 -> wide t = Some t' ->
  made kept st (var_mul_wide fop cp fast uniq st a0 a1) t' (N.max n0 n1) (g2 st a0 a1 (F2 MulWide t t')).
Proof.
  intros st a0 a1 t t' n0 n1 d0 d1 W G0 G1 C WD. unfold var_mul_wide. erewrite check2 by eauto.
  unfold info2, set_ty, mk2, make_zero. cbn [obind i_ty]. rewrite WD, G0, G1. cbn [i_simplify i_literal i_ty i_size].
  assert (T : is_int t = true /\ is_int t' = true /\ is_float t = false /\ is_float t' = false /\ is_bool t' = false).
  { destruct t; try discriminate; injection WD as <-; auto. }
  destruct T as (I & I' & NF & NF' & NB').
  assert (M : made kept st (node st MulWide t' (N.max n0 n1) [a0; a1]) t' (N.max n0 n1) (g2 st a0 a1 (F2 MulWide t t'))).
  { eapply node2; eauto. { intros. now apply ir_mul_wide. } intros. eapply F2_range; eauto. }
  match goal with |- made _ _ (if ?c then _ else _) _ _ _ => destruct c eqn:SI; [|exact M] end.
  destruct (is_literal (mkVar t n0 d0) && is_literal (mkVar t n1 d1)) eqn:LL.
  - destruct (lits_inv _ _ _ _ _ _ _ _ W G0 G1 LL) as (x & y & -> & -> & X & Y).
    destruct (cast_ok st a0 t t' n0 _ W G0 NF NF') as (st1 & c0 & -> & W1 & X1 & [e0 H0] & V0). cbn [obind fst snd].
    pose proof (get_extends _ _ _ _ X1 G1) as G1'.
    destruct (cast_ok st1 a1 t t' n1 _ W1 G1' NF NF') as (st2 & c1 & -> & W2 & X2 & [e1 H1] & V1). cbn [obind fst snd].
    apply (made_trans fop st st2); [eapply extends_trans; eauto|].
    assert (VX : forall l, value st2 c0 l = Some (bits t' (num t x))).
    { intros l. rewrite (value_extends st1 st2 c0 _ l X2 H0). apply V0. unfold g1.
      rewrite (value_literal _ _ _ _ x l G0 eq_refl). cbn [bind]. unfold FK. now rewrite NB'. }
    assert (VY : forall l, value st2 c1 l = Some (bits t' (num t y))).
    { intros l. apply V1. unfold g1. rewrite (value_literal _ _ _ _ y l G1' eq_refl). cbn [bind]. unfold FK. now rewrite NB'. }
    destruct (wide_prod t t' x y WD X Y) as (_ & _ & NX & AO). destruct (wide_prod t t' y x WD Y X) as (_ & _ & NY & _).
    pose proof (get_extends _ _ _ _ X2 H0) as H0'.
    eapply made_ext; [apply mul_ok with (t := t') (n0 := n0) (n1 := n1) (d0 := e0) (d1 := e1); auto|].
    + intros _ x' y' -> ->. pose proof (VX 0) as VX0. pose proof (VY 0) as VY0.
      rewrite (value_literal _ _ _ _ x' 0 H0' eq_refl) in VX0. rewrite (value_literal _ _ _ _ y' 0 H1 eq_refl) in VY0.
      injection VX0 as ->. injection VY0 as ->. rewrite NX, NY. exact AO.
    + intros l z H. eapply lane2 in H as (a & b & Va & Vb & A & B & H & L0 & L1 & L2); eauto. plain H.
      rewrite (L0 x eq_refl), (L1 y eq_refl). unfold g2. rewrite VX, VY. cbn [bind]. unfold F2. cbn [spec2 option_map]. now rewrite NX, NY.
  - destruct (is_zero (mkVar t n0 d0) || is_zero (mkVar t n1 d1)) eqn:Z; [|exact M].
    eapply const2; eauto; [now apply int_bool|]. intros a b x A B H U0 U1 UE. plain H.
    transitivity 0; [|now destruct t']. apply orb_prop in Z as [Z|Z]; apply lit_is_desc in Z.
    + rewrite (U0 0 Z), num_0, Z.mul_0_l. apply bits_0.
    + rewrite (U1 0 Z), num_0, Z.mul_0_r. apply bits_0.
Qed.

(** *** Sign transfer *)
Definition FCS (t : ty) (a b : N) : option N :=
  Some (bits t (if (num t b <? 0)%Z then - Z.abs (num t a) else Z.abs (num t a))).
Lemma bits_neg : forall t z, bits t (- num t (bits t z)) = bits t (- z).
Proof.
  intros t z. apply bits_congr. rewrite <- (Z.sub_0_l z), <- (Z.sub_0_l (num t (bits t z))). apply cong_sub; [reflexivity|].
  rewrite num_mod by apply bits_lt. apply bits_mod.
Qed.
Lemma abs_literal : forall st a0 t n d st' r t' n' x, wf st -> get st a0 = Some (mkVar t n d) ->
  var_abs fop cp st a0 = Ok (st', r) -> get st' r = Some (mkVar t' n' (Lit x)) -> exists y, d = Lit y.
Proof.
  intros st a0 t n d st' r t' n' x W G E H. destruct d as [y|f| |k deps]; [eauto| | |]; exfalso;
    unfold var_abs, with1 in E; rewrite (check_one _ _ _ W G), G in E; cbn [obind i_simplify i_literal i_ty is_literal v_desc andb v_ty] in E;
    (destruct (is_uint t); [injection E as <- <-; congruence|]); injection E as <- <-; rewrite get_new in H; discriminate.
Qed.
Lemma push_extends : forall st v st' r, push st v = Ok (st', r) -> extends st st'.
Proof. intros st v st' r E. injection E as <- <-. eexists. reflexivity. Qed.
Lemma literal_extends : forall st t x n st' r, literal st t x n = Ok (st', r) -> extends st st'.
Proof. intros st t x n st' r E. unfold literal in E. destruct (n =? 0); [injection E as <- <-; apply extends_refl|]. eapply push_extends; eauto. Qed.
Lemma compare_extends : forall k ev same st a0 a1 st' r, compare cp k ev same st a0 a1 = Ok (st', r) -> extends st st'.
Proof.
  intros k ev same st a0 a1 st' r E. unfold compare, with2 in E. destruct (check cp st [a0; a1]) as [i| | |]; try discriminate. cbn [obind] in E.
  destruct (get st a0) as [v0|]; [|injection E as <- <-; apply extends_refl].
  destruct (get st a1) as [v1|]; [|injection E as <- <-; apply extends_refl].
  unfold mk2, node, make_true, make_zero, eval_literal in E.
  destruct (i_simplify _); [|eapply push_extends; eauto]. destruct (i_literal _).
  - destruct (ev _ _ _); try discriminate. cbn [obind] in E. eapply literal_extends; eauto.
  - destruct (if Nat.eqb a0 a1 then _ else _) as [[]|]; [eapply literal_extends; eauto|eapply literal_extends; eauto|eapply push_extends; eauto].
Qed.
Lemma copysign_ok : forall st a0 a1 t n0 n1 d0 d1, wf st -> get st a0 = Some (mkVar t n0 d0) ->
  get st a1 = Some (mkVar t n1 d1) -> compat n0 n1 -> is_int t = true ->
  (cp = true -> forall x, d0 = Lit x -> (forall y, d1 <> Lit y) /\ fold1_ok Abs t (num t x) /\ fold1_ok Neg t (Z.abs (num t x))) ->
  made kept st (var_copysign fop cp uniq st a0 a1) t (N.max n0 n1) (g2 st a0 a1 (FCS t)).
Proof.
  intros st a0 a1 t n0 n1 d0 d1 W G0 G1 C I L. open2 var_copysign.
  destruct (sizes2 _ _ _ _ _ _ _ _ W G0 G1 C) as (S0 & S1 & N).
  match goal with |- made _ _ (if _ then _ else if _ then _ else ?r) _ _ _ =>
    assert (MAIN : made kept st r t (N.max n0 n1) (g2 st a0 a1 (FCS t))) end.
  { unfold make_zero, info2. cbn [i_ty i_size].
    destruct (fresh_literal st t 0 (N.max n0 n1) W N I) as (st1 & z & -> & W1 & X1 & Gz & NE). cbn [obind fst snd].
    pose proof (get_extends _ _ _ _ X1 G0) as G01. pose proof (get_extends _ _ _ _ X1 G1) as G11.
    destruct (abs_ok st1 a0 t n0 d0 W1 G01 I) as (st2 & p & EA & W2 & X2 & [dp Gp] & Vp).
    { intros x CP D. apply (L CP x D). }
    rewrite EA.
    cbn [obind fst snd].
    pose proof (get_extends _ _ _ _ X2 G01) as G02. pose proof (get_extends _ _ _ _ X2 G11) as G12. pose proof (get_extends _ _ _ _ X2 Gz) as Gz2.
    assert (VP : forall l a, value st a0 l = Some a -> value st2 p l = Some (bits t (Z.abs (num t a)))).
    { intros l a V. apply Vp. unfold g1. rewrite (value_extends _ _ _ _ l X1 G0), V. reflexivity. }
    destruct (neg_ok st2 p t n0 dp W2 Gp I) as (st3 & m & -> & W3 & X3 & [dm Gm] & Vm).
    { intros x CP ->. destruct (abs_literal _ _ _ _ _ _ _ _ _ _ W1 G01 EA Gp) as [y ->]. destruct (L CP y eq_refl) as (_ & _ & Q).
      pose proof (VP 0 y (value_literal _ _ _ _ y 0 G0 eq_refl)) as V. rewrite (value_literal _ _ _ _ x 0 Gp eq_refl) in V. injection V as ->.
      cbn [fold1_ok] in Q |- *. now rewrite bits_num by apply bits_lt. }
    cbn [obind fst snd].
    pose proof (get_extends _ _ _ _ X3 G12) as G13. pose proof (get_extends _ _ _ _ X3 Gz2) as Gz3. pose proof (get_extends _ _ _ _ X3 Gp) as Gp3.
    assert (VM : forall l a, value st a0 l = Some a -> value st3 m l = Some (bits t (- Z.abs (num t a)))).
    { intros l a V. apply Vm. unfold g1. rewrite (VP l a V). cbn [bind]. unfold F1. cbn [spec1 option_map]. now rewrite bits_neg. }
    assert (C3 : compat n1 (N.max n0 n1)) by (unfold compat; lia). assert (MX : N.max n1 (N.max n0 n1) = N.max n0 n1) by lia.
    destruct (compare_ok Lt (var_lt cp) st3 a1 z t _ _ _ _ W3 G13 Gz3 C3 (or_intror (or_introl eq_refl))) as (st4 & c & EC & W4 & _ & [dc Gc] & Vc).
    rewrite MX in Gc. pose proof (compare_extends _ _ _ _ _ _ _ _ EC) as X4. rewrite EC. cbn [obind fst snd].
    pose proof (get_extends _ _ _ _ X4 Gp3) as Gp4. pose proof (get_extends _ _ _ _ X4 Gm) as Gm4.
    apply (made_trans fop st st4); [eauto using extends_trans|].
    assert (CC : compat (N.max n0 n1) n0) by (unfold compat; lia).
    assert (C00 : compat n0 n0) by now left.
    pose proof (select_ok st4 c m p t _ _ _ _ _ _ W4 Gc Gm4 Gp4 CC CC C00) as SEL.
    replace (N.max (N.max n0 n1) (N.max n0 n0)) with (N.max n0 n1) in SEL by lia.
    eapply made_ext; [exact SEL|]. intros l x H. eapply lane2 in H as (a & b & Va & Vb & A & B & H & L0 & L1 & L2); eauto. injection H as <-.
    unfold g3. rewrite (value_extends _ _ _ _ l X4 Gm), (VM l a Va), (value_extends _ _ _ _ l X4 Gp3), (value_extends _ _ _ _ l X3 Gp), (VP l a Va).
    rewrite (Vc l (b2n (num t b <? 0)%Z)).
    2:{ unfold g2. rewrite (value_extends _ _ _ _ l X3 G12), (value_extends _ _ _ _ l X2 G11), (value_extends _ _ _ _ l X1 G1), Vb. cbn [bind].
        rewrite (value_literal _ _ _ _ _ l Gz3 eq_refl). cbn [bind]. unfold FC. f_equal. f_equal. unfold ordering. rewrite (int_not_float t I).
        rewrite wrap_small by (apply N.neq_0_lt_0, N.pow_nonzero; lia). rewrite num_0. unfold Z.ltb. now destruct (num t b ?= 0)%Z. }
    cbn [bind]. unfold FS. now destruct (num t b <? 0)%Z. }
  match goal with |- made _ _ (if ?c && _ then _ else _) _ _ _ => destruct c eqn:SI end; cbn [andb].
  { apply andb_prop in SI as [_ CP].
    destruct (is_literal (mkVar t n0 d0) && is_literal (mkVar t n1 d1)) eqn:LL.
    { destruct (lits_inv _ _ _ _ _ _ _ _ W G0 G1 LL) as (x & y & D0 & D1 & _). destruct (L CP x D0) as [Q _]. destruct (Q y D1). }
    destruct (Nat.eqb_spec a0 a1) as [E|E].
    { leaf2 left2. injection H as <-. rewrite (UE E). destruct (Z.ltb_spec (num t b) 0).
      - rewrite Z.abs_neq by lia. rewrite Z.opp_involutive. now apply bits_num.
      - rewrite Z.abs_eq by lia. now apply bits_num. }
    exact MAIN. }
  exact MAIN.
Qed.

(** *** Counting and reversing bits *)
Lemma bit_unique : forall k w a x y, In k [Popc; Clz; Brev; Ctz] -> bit_fact k w a x -> bit_fact k w a y -> x = y.
Proof.
  clear. intros k w a x y [<-|[<-|[<-|[<-|[]]]]]; cbn [bit_fact].
  - intros (l & D & E & <-) (l' & D' & E' & <-). f_equal. apply Permutation_length, NoDup_Permutation; auto.
    intros i. now rewrite E, E'.
  - intros (R & Z & O) (R' & Z' & O'). destruct (N.lt_trichotomy x y) as [Q|[Q|Q]]; [|assumption|].
    + rewrite Z' in O by lia. specialize (O ltac:(lia)). discriminate.
    + rewrite Z in O' by lia. specialize (O' ltac:(lia)). discriminate.
  - intros (R & E) (R' & E'). apply N.bits_inj. intros i. destruct (N.lt_ge_cases i w) as [Q|Q]; [now rewrite E, E'|].
    assert (HI : forall z, z < 2 ^ w -> N.testbit z i = false).
    { intros z Hz. destruct (N.eq_dec z 0) as [->|NZ]; [apply N.bits_0|]. apply N.bits_above_log2.
      apply N.lt_le_trans with w; [apply N.log2_lt_pow2; lia|assumption]. }
    now rewrite !HI.
  - intros (R & Z & O) (R' & Z' & O'). destruct (N.lt_trichotomy x y) as [Q|[Q|Q]]; [|assumption|].
    + rewrite Z' in O by lia. specialize (O ltac:(lia)). discriminate.
    + rewrite Z in O' by lia. specialize (O' ltac:(lia)). discriminate.
Qed.
Lemma bits_ok : forall k st a0 t n d, In k [Popc; Clz; Brev; Ctz] -> wf st -> get st a0 = Some (mkVar t n d) -> is_int t = true ->
  exists F, (forall a, a < 2 ^ width t -> exists x, F a = Some x /\ bit_fact k (width t) a x) /\
  made extends st (unary cp k (bit_builder k) st a0) t n (g1 st a0 F).
Proof.
  intros k st a0 t n d K W G I. exists (fun a => ir fop k t [t] [a]). split.
  { intros a A. destruct (ir_bits fop k t a K I) as (x & E & B & _). eauto. }
  eapply unary_ok; eauto.
  - intros a x A H. destruct (ir_bits fop k t a K I) as (y & E & B & R). rewrite E in H. injection H as <-. exact R.
  - intros x _ ->. pose proof (lit_range _ _ _ _ _ W G) as X. destruct (fold_bits k t x K I X) as (y & E & B & R). exists y.
    split; [exact E|]. split; [now apply int_bool|]. intros z H. destruct (ir_bits fop k t x K I) as (q & E' & B' & _).
    rewrite E' in H. injection H as <-. eapply bit_unique; eauto.
Qed.
End Builders.
