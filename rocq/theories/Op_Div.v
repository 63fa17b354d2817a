(** Division of literals, including the cases without a result on the machine. *)
From Verif Require Import Base Op_Model Op_Spec Op_Bits Op_Fold Op_Store Op_Proofs Op_Built Lred_Proofs.
Local Open Scope N_scope.

(** Division by zero sets all bits; the minimum over -1 wraps. *)
Definition literal_div (k : kind) (a b : Z) : Z :=
  if (b =? 0)%Z then (-1)%Z else match k with Div => Z.quot a b | _ => Z.rem a b end.

Lemma bits_m1 : forall t, is_int t = true -> bits t (-1) = 2 ^ width t - 1.
Proof. destruct t; try discriminate; reflexivity. Qed.
Lemma div_total : forall fop t a b, is_int t = true -> a < 2 ^ width t -> b < 2 ^ width t ->
  exists y, eval_div fop t a b = Ok y /\ wrap t y = bits t (literal_div Div (num t a) (num t b)).
Proof.
  intros fop t a b I A B. destruct (fold_div fop t a b I A B) as (y & E & H). exists y. split; [exact E|]. cbn [spec2] in H. unfold literal_div.
  destruct (div_defined t (num t a) (num t b)) eqn:D.
  - rewrite (H _ eq_refl). unfold div_defined in D. destruct (num t b =? 0)%Z; [discriminate|reflexivity].
  - clear H. unfold eval_div in E. rewrite int_not_bool, int_not_float in E by assumption. pose proof D as D'. unfold div_defined in D'. rewrite num_zero in * by assumption.
    destruct (b =? 0) eqn:Z0.
    + injection E as <-. rewrite bits_m1 by assumption. apply wrap_small. destruct t; try discriminate; reflexivity.
    + cbn [negb andb] in D'. destruct (is_sint t) eqn:Si; [|discriminate]. apply negb_false_iff, andb_prop in D'. destruct D' as [D1 D2].
      assert (M1 : a =? 2 ^ (width t - 1) = true) by (rewrite <- min_int_bits by assumption; exact D1). assert (M2 : b =? 2 ^ width t - 1 = true) by (rewrite <- minus_one_bits by assumption; exact D2).
      rewrite type_min_sint, M1, M2 in E by assumption. injection E as <-. apply N.eqb_eq in M1, M2. subst a b. destruct t; try discriminate; reflexivity.
Qed.
Lemma mod_total : forall t a b, is_int t = true -> a < 2 ^ width t -> b < 2 ^ width t ->
  exists y, eval_mod t a b = Ok y /\ wrap t y = bits t (literal_div Mod (num t a) (num t b)).
Proof.
  intros t a b I A B. destruct (fold_mod t a b I A B) as (y & E & H). exists y. split; [exact E|]. cbn [spec2] in H. unfold literal_div.
  destruct (div_defined t (num t a) (num t b)) eqn:D.
  - rewrite (H _ eq_refl). unfold div_defined in D. destruct (num t b =? 0)%Z; [discriminate|reflexivity].
  - clear H. unfold eval_mod in E. rewrite I in E. cbn [negb] in E. pose proof D as D'. unfold div_defined in D'. rewrite num_zero in * by assumption.
    destruct (b =? 0) eqn:Z0.
    + injection E as <-. rewrite bits_m1 by assumption. apply wrap_small. destruct t; try discriminate; reflexivity.
    + cbn [negb andb] in D'. destruct (is_sint t) eqn:Si; [|discriminate]. apply negb_false_iff, andb_prop in D'. destruct D' as [D1 D2].
      assert (M1 : a =? 2 ^ (width t - 1) = true) by (rewrite <- min_int_bits by assumption; exact D1). assert (M2 : b =? 2 ^ width t - 1 = true) by (rewrite <- minus_one_bits by assumption; exact D2).
      rewrite type_min_sint, M1, M2 in E by assumption. injection E as <-. apply N.eqb_eq in M1, M2. subst a b. destruct t; try discriminate; reflexivity.
Qed.
Lemma literals_div : forall fop cp fast uniq k B st a0 a1 t n0 n1 x y, wf fop st -> has st a0 t n0 -> has st a1 t n1 -> compat n0 n1 -> is_int t = true -> cp = true ->
  In (k, B) [(Div, var_div fop cp fast uniq); (Mod, var_mod cp uniq)] -> literal_is st a0 x -> literal_is st a1 y ->
  built fop st (B st a0 a1) t (N.max n0 n1) (fun _ r => r = bits t (literal_div k (num t x) (num t y))).
Proof.
  intros fop cp fast uniq k B st a0 a1 t n0 n1 x y W [d0 G0] [d1 G1] C I CP K (v0 & L0 & D0) (v1 & L1 & D1).
  rewrite G0 in L0. injection L0 as <-. rewrite G1 in L1. injection L1 as <-. cbn [v_desc] in D0, D1. subst d0 d1.
  pose proof (lit_range fop st a0 t n0 x W G0) as X. pose proof (lit_range fop st a1 t n1 y W G1) as Y.
  assert (S0 : 1 <= N.max n0 n1). { destruct (sizes2 fop st a0 a1 t n0 n1 _ _ W G0 G1 C) as (_ & _ & N). exact N. }
  assert (Q : exists v, B st a0 a1 = literal st t v (N.max n0 n1) /\ wrap t v = bits t (literal_div k (num t x) (num t y))).
  { destruct K as [K|[K|[]]]; injection K as <- <-.
    - destruct (div_total fop t x y I X Y) as (v & E & H). exists v. split; [|exact H]. unfold var_div. erewrite with2_eq by eauto.
      cbn [info2 i_simplify i_literal i_ty i_size v_ty v_size]. subst cp. cbn [is_literal v_desc andb lit_of]. rewrite E. reflexivity.
    - destruct (mod_total t x y I X Y) as (v & E & H). exists v. split; [|exact H]. unfold var_mod. erewrite check2 by eauto. rewrite G0, G1. cbn [obind].
      cbn [info2 i_simplify i_literal i_ty i_size v_ty v_size]. subst cp. cbn [is_literal v_desc andb lit_of]. rewrite E. reflexivity. }
  destruct Q as (v & -> & H). destruct (literal_out fop uniq (fun _ _ => Ub) st t v (N.max n0 n1) W S0 I) as (st' & r & -> & W' & Ex & G').
  exists st', r. split; [reflexivity|]. split; [exact W'|]. split; [now apply extends_kept|]. split; [eexists; exact G'|].
  intros l _. exists (wrap t v). split; [eapply value_literal; eauto; reflexivity|exact H].
Qed.
