From Verif Require Import Base Cac_Model Cac_Spec.
Local Open Scope N_scope.
#[local] Ltac Zify.zify_post_hook ::= idtac.

Lemma digit_ok : forall c, is_digit c = true <-> digit c.
Proof. intros c. unfold is_digit, digit. rewrite andb_true_iff, !N.leb_le. tauto. Qed.
Lemma digits_app : forall ds rest acc, Forall digit ds -> match rest with c :: _ => is_digit c = false | [] => True end ->
  digits acc (ds ++ rest) = (acc * 10 ^ len ds + decimal ds, rest).
Proof.
  induction ds as [|c ds IH]; intros rest acc D R.
  - cbn [app decimal]. unfold len. cbn [length N.of_nat]. rewrite N.pow_0_r, N.mul_1_r, N.add_0_r. destruct rest as [|c r]; cbn [digits]; [reflexivity|]. rewrite R. reflexivity.
  - inversion D as [|x y D1 D2]; subst x y. cbn [app digits decimal]. rewrite (proj2 (digit_ok c) D1), IH by assumption. f_equal.
    replace (len (c :: ds)) with (N.succ (len ds)) by (unfold len; cbn [length]; lia). rewrite N.pow_succ_r'. generalize (c - 48) (10 ^ len ds) (decimal ds). intros; lia.
Qed.
Lemma digits_split : forall s (acc : N), exists ds rest, s = ds ++ rest /\ Forall digit ds /\ match rest with c :: _ => is_digit c = false | [] => True end.
Proof.
  induction s as [|c s IH]; intros acc; [exists [], []; repeat split; constructor|]. destruct (is_digit c) eqn:E.
  - destruct (IH acc) as (ds & rest & -> & A & B). exists (c :: ds), rest. repeat split; [|exact B]. constructor; [apply digit_ok, E|exact A].
  - exists [], (c :: s). repeat split; [constructor|exact E].
Qed.
Lemma digit_plain : forall c, digit c -> is_space c = false /\ (c =? 45) = false /\ (c =? 43) = false /\ is_digit c = true.
Proof.
  intros c D. split; [|split; [|split; [|apply digit_ok, D]]]; unfold digit in D.
  - unfold is_space. apply orb_false_iff. split; [apply andb_false_iff; right; apply N.leb_gt; lia|apply N.eqb_neq; lia].
  - apply N.eqb_neq. lia.
  - apply N.eqb_neq. lia.
Qed.
Lemma strtoull_digits : forall ds rest, ds <> [] -> Forall digit ds -> match rest with c :: _ => is_digit c = false | [] => True end ->
  strtoull (ds ++ rest) = if decimal ds <? 2 ^ 64 then mkConv (decimal ds) rest false false else mkConv (2 ^ 64 - 1) rest true false.
Proof.
  intros [|c ds] rest N D R; [congruence|]. pose proof D as D0. inversion D as [|x y D1 D2]; subst x y. destruct (digit_plain c D1) as (P1 & P2 & P3 & P4).
  unfold strtoull. cbn [app spaces]. rewrite P1, P2, P3, P4. change (c :: ds ++ rest) with ((c :: ds) ++ rest). rewrite (digits_app (c :: ds) rest 0 D0 R), N.mul_0_l, N.add_0_l. reflexivity.
Qed.
Lemma suffix_rest : forall suf sc, suffix suf sc -> match suf with c :: _ => is_digit c = false | [] => True end.
Proof. intros suf sc H. destruct H as [|c [->| ->]|c [->| ->]|c [->| ->]]; reflexivity || exact I. Qed.
Lemma scale_pos : forall suf sc, suffix suf sc -> 1 <= sc.
Proof. intros suf sc H. destruct H; discriminate || (vm_compute; discriminate). Qed.
Lemma finish_ok : forall sc v, 1 <= sc -> (if size_max / sc <? v then size_max else u64 (v * sc)) = N.min (v * sc) (2 ^ 64 - 1).
Proof.
  intros sc v S1. pose proof (N.div_mod size_max sc ltac:(lia)) as E. pose proof (N.mod_lt size_max sc ltac:(lia)) as L. revert E L.
  generalize (size_max / sc) (size_max mod sc). intros q r E L. fold size_max. rewrite (N.mul_comm v sc). destruct (N.ltb_spec q v) as [H|H].
  - symmetry. apply N.min_r. assert (X : sc * (q + 1) <= sc * v) by (apply N.mul_le_mono_l; lia). rewrite N.mul_add_distr_l, N.mul_1_r in X. rewrite E. eapply N.le_trans; [|exact X]. lia.
  - assert (B : sc * v <= size_max) by (rewrite E; assert (sc * v <= sc * q) by (apply N.mul_le_mono_l; exact H); lia).
    rewrite (u64_small (sc * v)); [symmetry; apply N.min_l; exact B|]. unfold size_max in B. revert B. generalize (sc * v). intros; lia.
Qed.
Lemma parse_ok : forall s n, denotes s n -> parse_size s = N.min n (2 ^ 64 - 1).
Proof.
  intros s n (ds & suf & sc & -> & N & D & F & ->). pose proof (suffix_rest _ _ F) as R. pose proof (strtoull_digits ds suf N D R) as E. unfold parse_size.
  replace (match ds ++ suf with c :: _ => c =? 45 | [] => false end) with false by (destruct ds as [|c ds]; [congruence|]; inversion D; subst; symmetry; apply (digit_plain c); assumption).
  rewrite E. destruct (N.ltb_spec (decimal ds) (2 ^ 64)) as [L|L]; cbn [c_errno c_none c_rest c_value orb].
  - pose proof (scale_pos _ _ F) as SP. destruct F as [|c [->| ->]|c [->| ->]|c [->| ->]]; exact (finish_ok _ _ SP).
  - symmetry. apply N.min_r. pose proof (scale_pos _ _ F) as SP. assert (X : decimal ds * 1 <= decimal ds * sc) by (apply N.mul_le_mono_l; exact SP). rewrite N.mul_1_r in X. eapply N.le_trans; [|exact X]. eapply N.le_trans; [|exact L]. vm_compute. discriminate.
Qed.
Lemma parse_sound : forall s, match s with c :: _ => is_space c = false /\ c <> 43 | [] => True end -> ~ refused (parse_size s) -> denotes s (parse_size s).
Proof.
  intros s H NR. unfold refused in NR. fold size_max in NR.
  destruct (digits_split s 0) as (ds & rest & E & D & R). destruct ds as [|c ds].
  - exfalso. apply NR. cbn [app] in E. subst rest. unfold parse_size. destruct s as [|c s]; [reflexivity|]. destruct (N.eqb_spec c 45) as [|N1]; [reflexivity|]. destruct H as [H1 H2].
    unfold strtoull. cbn [spaces]. rewrite H1. rewrite (proj2 (N.eqb_neq c 45) N1), (proj2 (N.eqb_neq c 43) H2), R. reflexivity.
  - pose proof (strtoull_digits (c :: ds) rest ltac:(discriminate) D R) as St. rewrite <- E in St. unfold parse_size in NR |- *.
    assert (H45 : match s with c :: _ => c =? 45 | [] => false end = false) by (rewrite E; inversion D; subst; apply (digit_plain c); assumption).
    rewrite H45 in *. rewrite St in *. destruct (decimal (c :: ds) <? 2 ^ 64) eqn:L; cbn [c_errno c_none c_rest c_value orb] in *; [|congruence].
    assert (K : forall sc, 1 <= sc -> (if size_max / sc <? decimal (c :: ds) then size_max else u64 (decimal (c :: ds) * sc)) <> size_max ->
       (if size_max / sc <? decimal (c :: ds) then size_max else u64 (decimal (c :: ds) * sc)) = decimal (c :: ds) * sc).
    { intros sc P1 P2. rewrite finish_ok in * by exact P1. fold size_max in *. destruct (N.min_spec (decimal (c :: ds) * sc) size_max) as [[_ M]|[_ M]]; [exact M|congruence]. }
    destruct rest as [|x [|y r]].
    + rewrite (K 1 ltac:(lia) NR). exists (c :: ds), [], 1. repeat split; [exact E|discriminate|exact D|constructor].
    + destruct (scale_of x) as [sc|] eqn:SC; [|congruence]. assert (F : suffix [x] sc).
      { unfold scale_of in SC. destruct ((x =? 107) || (x =? 75)) eqn:E1; [|destruct ((x =? 109) || (x =? 77)) eqn:E2; [|destruct ((x =? 103) || (x =? 71)) eqn:E3; [|discriminate]]]; injection SC as <-;
        apply Kilo || apply Mega || apply Giga; rewrite orb_true_iff, !N.eqb_eq in *; assumption. }
      rewrite (K sc (scale_pos _ _ F) NR). exists (c :: ds), [x], sc. repeat split; [exact E|discriminate|exact D|exact F].
    + destruct (scale_of x); congruence.
Qed.
