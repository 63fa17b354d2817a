(** The results of Op_Proofs in the vocabulary of Op_Spec. *)
From Verif Require Import Base Op_Model Op_Spec Op_Bits Op_Fold Op_Store Op_Proofs.
Local Open Scope N_scope.

Lemma N_lt_dec : forall a b : N, {a < b} + {~ a < b}.
Proof. intros. destruct (a <? b) eqn:E; [left; now apply N.ltb_lt|right; now apply N.le_ngt, N.ltb_ge]. Qed.

Section Built.
Variable fop : kind -> ty -> list ty -> list N -> N.
Variables (cp fast : bool).
Variable uniq : store -> nat -> bool.
Notation value := (value fop).
Notation wf := (wf fop).
Notation kept := (kept fop).
Notation made := (made fop).
Notation built := (built fop).

Lemma built_made : forall st res t n f (P : N -> N -> Prop), made kept st res t n f ->
  (forall l x, P l x -> f l = Some x) -> built st res t n P.
Proof.
  intros st res t n f P (st' & r & E & W & K & H & V) F. exists st', r. repeat (split; [assumption|]).
  intros l [x Q]. exists x. split; [apply V, F, Q|exact Q].
Qed.
Lemma lanes2_g2 : forall k st a0 a1 t rt l x, lanes2 fop st a0 t a1 t (spec2 k t) rt l x -> g2 fop st a0 a1 (F2 k t rt) l = Some x.
Proof.
  intros k st a0 a1 t rt l x (a & b & z & V0 & V1 & H & ->). unfold g2. rewrite V0, V1. cbn [bind]. unfold F2. now rewrite H.
Qed.
Lemma lit_has : forall st h t n d, get st h = Some (mkVar t n d) -> forall x, d = Lit x -> literal_is st h x.
Proof. intros st h t n d G x ->. eexists. split; [exact G|reflexivity]. Qed.

Lemma binary_built : forall k B st a0 a1 t n0 n1, wf st -> has st a0 t n0 -> has st a1 t n1 -> compat n0 n1 -> is_int t = true ->
  In (k, B) [(Add, var_add fop cp uniq); (Sub, var_sub fop cp uniq); (Mul, var_mul fop cp fast uniq);
             (Div, var_div fop cp fast uniq); (Mod, var_mod cp uniq); (Min, var_min cp uniq); (Max, var_max cp uniq);
             (Shl, var_shl cp uniq); (Shr, var_shr cp uniq)] ->
  (cp = true -> forall x y, literal_is st a0 x -> literal_is st a1 y -> fold2_ok k t (num t x) (num t y)) ->
  built st (B st a0 a1) t (N.max n0 n1) (lanes2 fop st a0 t a1 t (spec2 k t) t).
Proof.
  intros k B st a0 a1 t n0 n1 W [d0 G0] [d1 G1] C I K L.
  assert (L' : litok2 cp t d0 d1 k) by (intros CP x y D0 D1; eapply L; eauto using lit_has).
  eapply built_made with (f := g2 fop st a0 a1 (F2 k t t)); [|intros; now apply lanes2_g2].
  destruct K as [K|[K|[K|[K|[K|[K|[K|[K|[K|[]]]]]]]]]]; injection K as <- <-.
  - eapply add_ok; eauto.
  - eapply sub_ok; eauto.
  - eapply mul_ok; eauto.
  - eapply div_ok; eauto.
  - eapply mod_ok; eauto.
  - eapply min_ok; eauto.
  - eapply max_ok; eauto.
  - eapply shl_ok; eauto.
  - eapply shr_ok; eauto.
Qed.
Lemma bitwise_built : forall k B st a0 a1 t n0 n1, wf st -> has st a0 t n0 -> has st a1 t n1 -> compat n0 n1 ->
  In (k, B) [(And, var_and cp uniq); (Or, var_or cp uniq); (Xor, var_xor cp uniq)] ->
  built st (B st a0 a1) t (N.max n0 n1) (lanes2 fop st a0 t a1 t (spec2 k t) t).
Proof.
  intros k B st a0 a1 t n0 n1 W [d0 G0] [d1 G1] C K.
  eapply built_made with (f := g2 fop st a0 a1 (F2 k t t)); [|intros; now apply lanes2_g2].
  destruct K as [K|[K|[K|[]]]]; injection K as <- <-; [eapply and_ok|eapply or_ok|eapply xor_ok]; eauto.
Qed.
Lemma mul_hi_built : forall st a0 a1 t n0 n1, wf st -> has st a0 t n0 -> has st a1 t n1 -> compat n0 n1 -> is_int t = true ->
  (cp = true -> forall x y, literal_is st a0 x -> literal_is st a1 y -> 32 <= width t) ->
  built st (var_mul_hi cp uniq st a0 a1) t (N.max n0 n1) (lanes2 fop st a0 t a1 t (spec2 MulHi t) t).
Proof.
  intros st a0 a1 t n0 n1 W [d0 G0] [d1 G1] C I L.
  eapply built_made with (f := g2 fop st a0 a1 (F2 MulHi t t)); [|intros; now apply lanes2_g2].
  eapply mul_hi_ok; eauto. intros CP x y D0 D1. eapply L; eauto using lit_has.
Qed.
Lemma mul_wide_built : forall st a0 a1 t t' n0 n1, wf st -> has st a0 t n0 -> has st a1 t n1 -> compat n0 n1 -> wide t = Some t' ->
  built st (var_mul_wide fop cp fast uniq st a0 a1) t' (N.max n0 n1) (lanes2 fop st a0 t a1 t (spec2 MulWide t) t').
Proof.
  intros st a0 a1 t t' n0 n1 W [d0 G0] [d1 G1] C WD.
  eapply built_made with (f := g2 fop st a0 a1 (F2 MulWide t t')); [|intros; now apply lanes2_g2].
  eapply mul_wide_ok; eauto.
Qed.
Lemma unary_built : forall k B st a0 t n, wf st -> has st a0 t n -> is_int t = true ->
  In (k, B) [(Neg, var_neg fop cp); (Not, var_not cp); (Abs, var_abs fop cp)] ->
  (cp = true -> forall x, literal_is st a0 x -> fold1_ok k t (num t x)) ->
  built st (B st a0) t n (lanes1 fop st a0 t (spec1 k t) t).
Proof.
  intros k B st a0 t n W [d G] I K L.
  eapply built_made with (f := g1 fop st a0 (F1 k t t)).
  2:{ intros l x (a & z & V & H & ->). unfold g1. rewrite V. cbn [bind]. unfold F1. now rewrite H. }
  apply made_kept. destruct K as [K|[K|[K|[]]]]; injection K as <- <-; [eapply neg_ok|eapply not_ok|eapply abs_ok]; eauto using lit_has.
  now rewrite I.
Qed.
Lemma not_built : forall st a0 n, wf st -> has st a0 Bool n ->
  built st (var_not cp st a0) Bool n (fun l x => exists a, value st a0 l = Some a /\ x = 1 - a).
Proof.
  intros st a0 n W [d G].
  eapply built_made with (f := g1 fop st a0 (F1 Not Bool Bool)).
  2:{ intros l x (a & V & ->). unfold g1. rewrite V. cbn [bind]. pose proof (wf_range _ _ _ _ _ _ _ _ W G V) as A.
      cbn [width] in A. change (2 ^ 1) with 2 in A. assert (a = 0 \/ a = 1) as [-> | ->] by lia; reflexivity. }
  apply made_kept. eapply not_ok; eauto.
Qed.
Lemma fma_built : forall st a0 a1 a2 t n0 n1 n2, wf st -> has st a0 t n0 -> has st a1 t n1 -> has st a2 t n2 ->
  compat n0 n1 -> compat n0 n2 -> compat n1 n2 -> is_int t = true ->
  (cp = true -> forall x y z, literal_is st a0 x -> literal_is st a1 y -> literal_is st a2 z ->
     fold3_ok t (num t x) (num t y) (num t z)) ->
  built st (var_fma fop cp fast uniq st a0 a1 a2) t (N.max n0 (N.max n1 n2))
    (lanes3 fop st a0 t a1 t a2 t (fun a b c => Some (a * b + c)%Z) t).
Proof.
  intros st a0 a1 a2 t n0 n1 n2 W [d0 G0] [d1 G1] [d2 G2] C01 C02 C12 I L.
  eapply built_made with (f := g3 fop st a0 a1 a2 (F3 t)).
  2:{ intros l x (a & b & c & z & V0 & V1 & V2 & H & ->). unfold g3. rewrite V0, V1, V2. cbn [bind]. injection H as <-. reflexivity. }
  eapply fma_ok; eauto. intros CP x y z D0 D1 D2. eapply L; eauto using lit_has.
Qed.
Lemma select_built : forall st a0 a1 a2 t n0 n1 n2, wf st -> has st a0 Bool n0 -> has st a1 t n1 -> has st a2 t n2 ->
  compat n0 n1 -> compat n0 n2 -> compat n1 n2 ->
  built st (var_select cp uniq st a0 a1 a2) t (N.max n0 (N.max n1 n2))
    (fun l x => exists m a b, value st a0 l = Some m /\ value st a1 l = Some a /\ value st a2 l = Some b /\
                  (m = 1 -> x = a) /\ (m = 0 -> x = b)).
Proof.
  intros st a0 a1 a2 t n0 n1 n2 W [d0 G0] [d1 G1] [d2 G2] C01 C02 C12.
  eapply built_made with (f := g3 fop st a0 a1 a2 FS).
  2:{ intros l x (m & a & b & V0 & V1 & V2 & P1 & P0). unfold g3. rewrite V0, V1, V2. cbn [bind].
      pose proof (wf_range _ _ _ _ _ _ _ _ W G0 V0) as M. cbn [width] in M. change (2 ^ 1) with 2 in M.
      assert (m = 0 \/ m = 1) as [-> | ->] by lia; unfold FS; [rewrite P0|rewrite P1]; reflexivity. }
  eapply select_ok; eauto.
Qed.
Lemma cast_built : forall st a0 t0 t n, wf st -> has st a0 t0 n -> is_float t0 = false -> is_float t = false ->
  built st (var_cast fop cp st a0 t) t n
    (fun l x => exists a, value st a0 l = Some a /\
       (t <> Bool -> x = bits t (num t0 a)) /\ (t = Bool -> x = if (num t0 a =? 0)%Z then 0 else 1)).
Proof.
  intros st a0 t0 t n W [d G] F0 F.
  eapply built_made with (f := g1 fop st a0 (FK t0 t)).
  2:{ intros l x (a & V & P & Q). unfold g1. rewrite V. cbn [bind]. unfold FK. f_equal.
      destruct (is_bool t) eqn:B.
      - destruct t; try discriminate. rewrite Q by reflexivity. now destruct (_ =? _)%Z.
      - symmetry. apply P. intros ->. discriminate. }
  apply made_kept. eapply cast_ok; eauto.
Qed.
Lemma copysign_built : forall st a0 a1 t n0 n1, wf st -> has st a0 t n0 -> has st a1 t n1 -> compat n0 n1 -> is_int t = true ->
  (cp = true -> forall x, literal_is st a0 x ->
     (forall y, ~ literal_is st a1 y) /\ fold1_ok Abs t (num t x) /\ fold1_ok Neg t (Z.abs (num t x))) ->
  built st (var_copysign fop cp uniq st a0 a1) t (N.max n0 n1)
    (lanes2 fop st a0 t a1 t (fun a b => Some (if (b <? 0)%Z then - Z.abs a else Z.abs a)%Z) t).
Proof.
  intros st a0 a1 t n0 n1 W [d0 G0] [d1 G1] C I L.
  eapply built_made with (f := g2 fop st a0 a1 (FCS t)).
  2:{ intros l x (a & b & z & V0 & V1 & H & ->). unfold g2. rewrite V0, V1. cbn [bind]. injection H as <-. reflexivity. }
  eapply copysign_ok; eauto. intros CP x D. destruct (L CP x (lit_has _ _ _ _ _ G0 x D)) as (P & Q). split; [|exact Q].
  intros y E. apply (P y). eauto using lit_has.
Qed.
Lemma mask_built : forall st a0 a1 t n0 n1, wf st -> has st a0 t n0 -> has st a1 Bool n1 -> compat n0 n1 -> t <> Bool ->
  built st (var_and cp uniq st a0 a1) t (N.max n0 n1)
    (fun l x => exists a m, value st a0 l = Some a /\ value st a1 l = Some m /\ (m = 1 -> x = a) /\ (m = 0 -> x = 0)) /\
  built st (var_or cp uniq st a0 a1) t (N.max n0 n1)
    (fun l x => exists a m, value st a0 l = Some a /\ value st a1 l = Some m /\ (m = 1 -> x = bits t (-1)) /\ (m = 0 -> x = a)).
Proof.
  intros st a0 a1 t n0 n1 W [d0 G0] [d1 G1] C NB. split.
  - eapply built_made with (f := g2 fop st a0 a1 mask_and).
    2:{ intros l x (a & m & V0 & V1 & P1 & P0). unfold g2. rewrite V0, V1. cbn [bind].
        pose proof (wf_range _ _ _ _ _ _ _ _ W G1 V1) as M. cbn [width] in M. change (2 ^ 1) with 2 in M.
        assert (m = 0 \/ m = 1) as [-> | ->] by lia; unfold mask_and; [rewrite P0|rewrite P1]; reflexivity. }
    eapply mask_and_ok; eauto.
  - eapply built_made with (f := g2 fop st a0 a1 (mask_or t)).
    2:{ intros l x (a & m & V0 & V1 & P1 & P0). unfold g2. rewrite V0, V1. cbn [bind].
        pose proof (wf_range _ _ _ _ _ _ _ _ W G1 V1) as M. cbn [width] in M. change (2 ^ 1) with 2 in M.
        assert (m = 0 \/ m = 1) as [-> | ->] by lia; unfold mask_or; [rewrite P0|rewrite P1]; try reflexivity. now destruct t. }
    eapply mask_or_ok; eauto.
Qed.
Lemma compare_built : forall k B st a0 a1 t n0 n1, wf st -> has st a0 t n0 -> has st a1 t n1 -> compat n0 n1 ->
  In (k, B) [(Eq, var_eq cp); (Lt, var_lt cp); (Le, var_le cp); (Gt, var_gt cp); (Ge, var_ge cp)] \/
  (k, B) = (Neq, var_neq cp) /\ is_float t = false ->
  built st (B st a0 a1) Bool (N.max n0 n1)
    (fun l x => exists a b, value st a0 l = Some a /\ value st a1 l = Some b /\
                  x = if truth k (ordering t a b) then 1 else 0).
Proof.
  intros k B st a0 a1 t n0 n1 W [d0 G0] [d1 G1] C K.
  eapply built_made with (f := g2 fop st a0 a1 (FC k t)).
  2:{ intros l x (a & b & V0 & V1 & ->). unfold g2. rewrite V0, V1. reflexivity. }
  destruct K as [K|[K F]]; [eapply compare_ok; eauto|]. injection K as -> ->. eapply neq_ok; eauto.
Qed.
Lemma bits_built : forall k B st a0 t n, wf st -> has st a0 t n -> is_int t = true ->
  In (k, B) [(Popc, var_popc cp); (Clz, var_clz cp); (Brev, var_brev cp); (Ctz, var_ctz cp)] ->
  built st (B st a0) t n (fun l x => exists a, value st a0 l = Some a /\ bit_fact k (width t) a x) /\
  forall l a, value st a0 l = Some a -> exists x, bit_fact k (width t) a x.
Proof.
  intros k B st a0 t n W [d G] I K.
  assert (KK : In k [Popc; Clz; Brev; Ctz] /\ B = unary cp k (bit_builder k)).
  { destruct K as [K|[K|[K|[K|[]]]]]; injection K as <- <-; (split; [cbn; tauto|reflexivity]). }
  destruct KK as [KK ->]. destruct (bits_ok fop cp uniq k st a0 t n d KK W G I) as (F & E & M). split.
  - eapply built_made; [apply made_kept, M|].
    intros l x (a & V & H). unfold g1. rewrite V. cbn [bind]. destruct (E a (wf_range _ _ _ _ _ _ _ _ W G V)) as (y & -> & H').
    f_equal. eapply bit_unique; eauto.
  - intros l a V. destruct (E a (wf_range _ _ _ _ _ _ _ _ W G V)) as (x & _ & H). eauto.
Qed.

(** *** Literals *)
Lemma literal_get : forall st h t n x, has st h t n -> literal_is st h x -> get st h = Some (mkVar t n (Lit x)).
Proof. intros st h t n x [d G] (v & G' & D). rewrite G in G'. injection G' as <-. cbn in D. now rewrite D in G. Qed.
Lemma obind_ub : forall st i y, eval_literal st i (Ok y) <> Ub.
Proof. intros st i y. unfold eval_literal, literal. cbn [obind]. now destruct (_ =? _). Qed.
Lemma fold1_ub : forall k B st a0 t n x, cp = true -> wf st -> has st a0 t n -> literal_is st a0 x -> is_int t = true ->
  In (k, B) [(Neg, var_neg fop cp); (Not, var_not cp); (Abs, var_abs fop cp); (Popc, var_popc cp); (Clz, var_clz cp);
             (Brev, var_brev cp); (Ctz, var_ctz cp)] ->
  (B st a0 = Ub <-> ~ fold1_ok k t (num t x)).
Proof.
  intros k B st a0 t n x CP W H L I K. pose proof (literal_get _ _ _ _ _ H L) as G. pose proof (lit_range _ _ _ _ _ _ W G) as X.
  assert (U : forall k ev, unary cp k ev st a0 = eval_literal st (mkInfo t n true true) (ev t x)).
  { intros k0 ev. unfold unary, with1. rewrite (check_one _ _ uniq _ _ _ W G), G. cbn [obind i_simplify i_literal v_ty v_size is_literal v_desc lit_of].
    rewrite CP. reflexivity. }
  assert (V : var_abs fop cp st a0 = eval_literal st (mkInfo t n true true) (eval_abs fop t x)).
  { unfold var_abs, with1. rewrite (check_one _ _ uniq _ _ _ W G), G. cbn [obind i_simplify i_literal v_ty v_size is_literal v_desc lit_of i_ty].
    rewrite CP. reflexivity. }
  destruct K as [K|[K|[K|[K|[K|[K|[K|[]]]]]]]]; injection K as <- <-; unfold var_neg, var_not, var_popc, var_clz, var_brev, var_ctz; rewrite ?U, ?V.
  - destruct (fold_neg fop t x I X) as [P Q]. split.
    + intros E F. destruct (P F) as (y & Y & _). rewrite Y in E. now apply obind_ub in E.
    + intros F. now rewrite (Q F).
  - split; [intros E; now apply obind_ub in E|]. intros F. now destruct F.
  - destruct (fold_abs fop t x I X) as [P Q]. split.
    + intros E F. destruct (P F) as (y & Y & _). rewrite Y in E. now apply obind_ub in E.
    + intros F. now rewrite (Q F).
  - destruct (fold_bits Popc t x) as (y & E & _); cbn; auto. cbn [bit_builder] in E. rewrite E.
    split; [intros EE; now apply obind_ub in EE|]. intros F. now destruct F.
  - destruct (fold_bits Clz t x) as (y & E & _); cbn; auto. cbn [bit_builder] in E. rewrite E.
    split; [intros EE; now apply obind_ub in EE|]. intros F. now destruct F.
  - destruct (fold_bits Brev t x) as (y & E & _); cbn; auto. cbn [bit_builder] in E. rewrite E.
    split; [intros EE; now apply obind_ub in EE|]. intros F. now destruct F.
  - destruct (fold_bits Ctz t x) as (y & E & _); cbn; auto 6. cbn [bit_builder] in E. rewrite E.
    split; [intros EE; now apply obind_ub in EE|]. intros F. now destruct F.
Qed.
Lemma fold2_ub : forall k B st a0 a1 t n0 n1 x y, cp = true -> wf st -> has st a0 t n0 -> has st a1 t n1 -> compat n0 n1 ->
  literal_is st a0 x -> literal_is st a1 y -> is_int t = true ->
  In (k, B) [(Add, var_add fop cp uniq); (Sub, var_sub fop cp uniq); (Mul, var_mul fop cp fast uniq);
             (Div, var_div fop cp fast uniq); (Mod, var_mod cp uniq); (Min, var_min cp uniq); (Max, var_max cp uniq);
             (Shl, var_shl cp uniq); (Shr, var_shr cp uniq); (And, var_and cp uniq); (Or, var_or cp uniq); (Xor, var_xor cp uniq)] ->
  (B st a0 a1 = Ub <-> ~ fold2_ok k t (num t x) (num t y)).
Proof.
  intros k B st a0 a1 t n0 n1 x y CP W H0 H1 C L0 L1 I K.
  pose proof (literal_get _ _ _ _ _ H0 L0) as G0. pose proof (literal_get _ _ _ _ _ H1 L1) as G1.
  pose proof (lit_range _ _ _ _ _ _ W G0) as X. pose proof (lit_range _ _ _ _ _ _ W G1) as Y.
  assert (DEC : {fold2_ok k t (num t x) (num t y)} + {~ fold2_ok k t (num t x) (num t y)}).
  { clear - K. destruct k; cbn [fold2_ok]; try (left; exact Logic.I); try apply arith_dec.
    - destruct (width t <? 32).
      + destruct (N_lt_dec (bits t (num t y)) 32) as [A|A]; [|right; tauto].
        destruct (N_lt_dec (bits t (num t x) * 2 ^ bits t (num t y)) (2 ^ 32)) as [A2|A2]; [left; tauto|right; tauto].
      + apply N_lt_dec.
    - destruct (Z_le_dec 0 (num t y)) as [A|A]; [|right; tauto].
      destruct (Z_lt_dec (num t y) (Z.of_N (computed_width t))) as [A2|A2]; [left; tauto|right; tauto]. }
  destruct DEC as [OK|BAD].
  - split; [|tauto]. intros E. exfalso.
    assert (M : built st (B st a0 a1) t (N.max n0 n1) (lanes2 fop st a0 t a1 t (spec2 k t) t)).
    { assert (K' : In (k, B) [(Add, var_add fop cp uniq); (Sub, var_sub fop cp uniq); (Mul, var_mul fop cp fast uniq);
             (Div, var_div fop cp fast uniq); (Mod, var_mod cp uniq); (Min, var_min cp uniq); (Max, var_max cp uniq);
             (Shl, var_shl cp uniq); (Shr, var_shr cp uniq)] \/ In (k, B) [(And, var_and cp uniq); (Or, var_or cp uniq); (Xor, var_xor cp uniq)]).
      { cbn [In] in K |- *. tauto. }
      destruct K' as [K'|K'].
      - apply binary_built; auto. intros _ x' y' L0' L1'.
        pose proof (literal_get _ _ _ _ _ H0 L0') as E0. pose proof (literal_get _ _ _ _ _ H1 L1') as E1.
        rewrite G0 in E0. rewrite G1 in E1. injection E0 as <-. injection E1 as <-. exact OK.
      - now apply bitwise_built. }
    destruct M as (st' & r & E' & _). congruence.
  - split; [auto|]. intros _.
    assert (E2 : forall B', (forall i v0 v1, i_simplify i = true -> i_literal i = true -> v0 = mkVar t n0 (Lit x) -> v1 = mkVar t n1 (Lit y) -> B' i v0 v1 = Ub) ->
       with2 cp st a0 a1 B' = Ub).
    { intros B' HB. rewrite (with2_eq fop cp uniq st a0 a1 t n0 n1 (Lit x) (Lit y) W G0 G1 C). now apply HB. }
    destruct K as [K|[K|[K|[K|[K|[K|[K|[K|[K|[K|[K|[K|[]]]]]]]]]]]]]; injection K as <- <-; try (exfalso; apply BAD; exact Logic.I).
    + apply E2. intros i v0 v1 -> -> -> ->. cbn [v_ty lit_of v_desc]. destruct (fold_arith fop Add Z.add t x y I) as [_ Q]. now rewrite (Q BAD).
    + apply E2. intros i v0 v1 -> -> -> ->. cbn [v_ty lit_of v_desc]. destruct (fold_arith fop Sub Z.sub t x y I) as [_ Q]. now rewrite (Q BAD).
    + apply E2. intros i v0 v1 -> -> -> ->. cbn [v_ty lit_of v_desc]. destruct (fold_arith fop Mul Z.mul t x y I) as [_ Q]. now rewrite (Q BAD).
    + apply E2. intros i v0 v1 -> -> -> ->. cbn [v_ty lit_of v_desc]. destruct (fold_shl fop t x y I X Y) as [_ Q]. now rewrite (Q BAD).
    + apply E2. intros i v0 v1 -> -> -> ->. cbn [v_ty lit_of v_desc]. destruct (fold_shr t x y I X Y) as [_ Q]. now rewrite (Q BAD).
Qed.

(** *** Sizes *)
Lemma check_bad : forall st a0 a1 t0 t1 n0 n1, wf st -> has st a0 t0 n0 -> has st a1 t1 n1 -> ~ compat n0 n1 -> check cp st [a0; a1] = Raise.
Proof.
  intros st a0 a1 t0 t1 n0 n1 W [d0 G0] [d1 G1] C. pose proof (wf_get _ _ _ _ W G0) as P0. pose proof (wf_get _ _ _ _ W G1) as P1. cbn [v_size] in P0, P1.
  unfold check. cbn [map]. rewrite G0, G1. cbn [vsize fold_right forallb v_size]. rewrite N.max_0_r.
  destruct (N.ltb_spec 0 (N.max n0 n1)); [|lia]. cbn [andb].
  destruct (N.eqb_spec n0 (N.max n0 n1)); destruct (N.eqb_spec n0 1); destruct (N.eqb_spec n1 (N.max n0 n1)); destruct (N.eqb_spec n1 1); cbn; try reflexivity;
    exfalso; apply C; unfold compat; lia.
Qed.
Lemma sizes_raise : forall B st a0 a1 t0 t1 n0 n1, wf st -> has st a0 t0 n0 -> has st a1 t1 n1 -> ~ compat n0 n1 ->
  In B [var_add fop cp uniq; var_sub fop cp uniq; var_mul fop cp fast uniq; var_div fop cp fast uniq; var_mod cp uniq; var_min cp uniq; var_max cp uniq;
        var_shl cp uniq; var_shr cp uniq; var_and cp uniq; var_or cp uniq; var_xor cp uniq; var_mul_hi cp uniq; var_mul_wide fop cp fast uniq;
        var_copysign fop cp uniq; var_eq cp; var_neq cp; var_lt cp; var_le cp; var_gt cp; var_ge cp] ->
  B st a0 a1 = Raise.
Proof.
  intros B st a0 a1 t0 t1 n0 n1 W H0 H1 C K. pose proof (check_bad _ _ _ _ _ _ _ W H0 H1 C) as E.
  assert (WR : forall f, with2 cp st a0 a1 f = Raise) by (intros; unfold with2; now rewrite E).
  repeat (destruct K as [<-|K]; [first [apply WR|unfold var_mod, var_mul_wide; now rewrite E]|]). destruct K.
Qed.
End Built.

Lemma wf_nil : forall fop, wf fop [].
Proof. split; [intros [|] v H; discriminate|intros [|[|h]] v l x H; discriminate]. Qed.
Lemma wf_input : forall fop st t n d, wf fop st -> 1 <= n ->
  match d with Lit x => x < 2 ^ width t | Arr f => forall l, f l < 2 ^ width t | Ctr => n <> 1 | Op _ _ => False end ->
  wf fop (st ++ [mkVar t n d]).
Proof.
  intros fop st t n d W N H. apply wf_push; auto.
  - split; [exact N|]. cbn [v_desc v_ty v_size]. destruct d; auto. destruct H.
  - intros l x V. rewrite value_new in V. cbn [v_size eval_node v_ty v_desc snd] in V |- *. destruct d; try (now destruct H).
    + injection V as <-. exact H.
    + injection V as <-. apply H.
    + injection V as <-. apply wrap_lt.
Qed.
