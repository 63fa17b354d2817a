(** What the interface functions return. *)

From Verif Require Import Base Arr_Model Arr_Spec Arr_Proofs.

Lemma val_num : forall t i z, val_of t i = VNum z -> num (values t) i = Some z.
Proof.
  intros t i z H. unfold num, val_of in *.
  destruct (nth_error (values t) i) as [v|] eqn:E.
  - rewrite (nth_error_nth _ _ _ E) in H. rewrite H. reflexivity.
  - apply nth_error_None in E. rewrite nth_overflow in H by exact E. discriminate.
Qed.

Lemma val_arr : forall t i l, val_of t i = VArr l -> nth_error (values t) i = Some (VArr l).
Proof.
  intros t i l H. unfold val_of in *.
  destruct (nth_error (values t) i) as [v|] eqn:E.
  - rewrite (nth_error_nth _ _ _ E) in H. congruence.
  - apply nth_error_None in E. rewrite nth_overflow in H by exact E. discriminate.
Qed.

Lemma val_last : forall t n, val_of (t ++ [n]) (length t) = node_val (values t) n.
Proof.
  intros t n. unfold val_of. rewrite values_snoc.
  rewrite app_nth2 by (rewrite values_length; lia).
  rewrite values_length, Nat.sub_diag. reflexivity.
Qed.

Lemma is_false_val : forall t m z, ops_lt t -> is_false t m = true -> val_of t m = VNum (Some z) -> z = 0%Z.
Proof.
  intros t m z O H V. unfold is_false in H.
  destruct (nth_error t m) as [n|] eqn:E; [|discriminate]. destruct n; try discriminate.
  apply Z.eqb_eq in H. subst z0.
  destruct (val_of_node t m _ O E) as [Q _]. rewrite V in Q. cbn in Q. congruence.
Qed.

Lemma is_false_num : forall t m z, ops_lt t -> is_false t m = true -> val_of t m = VNum z -> z = Some 0%Z.
Proof.
  intros t m z O H V. unfold is_false in H.
  destruct (nth_error t m) as [n|] eqn:E; [|discriminate]. destruct n; try discriminate.
  apply Z.eqb_eq in H. subst z0.
  destruct (val_of_node t m _ O E) as [Q _]. rewrite V in Q. cbn in Q. congruence.
Qed.

Theorem api_write : forall calls t a o v m t' r l vm vo vv,
  api_all [] calls = Some t -> eval_use [] calls ->
  api t (CWrite a o v m) = Some (t', r) ->
  val_of t a = VArr l -> val_of t m = VNum vm -> val_of t o = VNum vo -> val_of t v = VNum vv ->
  val_of t' r = write_val l vm vo vv /\
  (forall i, (i < length t)%nat -> val_of t' i = val_of t i).
Proof.
  intros calls t a o v m t' r l vm vo vv HA HE H VA VM VO VV.
  assert (W := wf_api_all _ _ _ wf_nil HA HE).
  cbn [api] in H. destruct (_ && _)%bool eqn:C in H; [|discriminate].
  destruct (is_false t m) eqn:F.
  - injection H as <- <-. split; [|auto].
    rewrite (is_false_num t m vm (wf_ops t W) F VM). cbn. exact VA.
  - destruct (array_buffer t a) as [b|]; [|discriminate]. injection H as <- <-.
    split; [|intros i I; apply val_of_app; exact I].
    replace (t ++ [NArray (len_of t a) (Some b); NWrite (len_of t a) a (length t) m o v])
      with ((t ++ [NArray (len_of t a) (Some b)]) ++ [NWrite (len_of t a) a (length t) m o v])
      by (rewrite <- app_assoc; reflexivity).
    set (t1 := t ++ [NArray (len_of t a) (Some b)]).
    replace (S (length t)) with (length t1) by (unfold t1; rewrite app_length; cbn; lia).
    rewrite val_last. cbn [node_val].
    assert (LT : forall i x, val_of t i = x -> x <> VBad -> (i < length t)%nat).
    { intros i x X N. destruct (Nat.lt_ge_cases i (length t)) as [L|L]; [exact L|].
      exfalso. apply N. rewrite <- X. unfold val_of. apply nth_overflow. rewrite values_length. exact L. }
    assert (KP : forall i x, val_of t i = x -> x <> VBad -> val_of t1 i = x).
    { intros i x X N. unfold t1. rewrite val_of_app; [exact X|]. eapply LT; eauto. }
    rewrite (val_arr t1 a l) by (apply KP; [exact VA|discriminate]).
    rewrite (val_num t1 m vm) by (apply KP; [exact VM|discriminate]).
    rewrite (val_num t1 o vo) by (apply KP; [exact VO|discriminate]).
    rewrite (val_num t1 v vv) by (apply KP; [exact VV|discriminate]).
    reflexivity.
Qed.

Lemma nth_error_rep : forall A (x : A) n k y, nth_error (repeat x n) k = Some y -> y = x.
Proof.
  intros A x n k y H. apply nth_error_In in H. apply repeat_spec in H. exact H.
Qed.

Theorem api_read : forall calls t sym a o m t' r l vm vo,
  api_all [] calls = Some t -> eval_use [] calls ->
  api t (CRead sym a o m) = Some (t', r) ->
  val_of t a = VArr l -> val_of t m = VNum (Some vm) -> val_of t o = VNum vo ->
  vm <> 0%Z \/ sym = true -> read_val l (Some vm) vo <> VBad ->
  val_of t' r = read_val l (Some vm) vo /\
  (forall i, (i < length t)%nat -> val_of t' i = val_of t i).
Proof.
  intros calls t sym a o m t' r l vm vo HA HE H VA VM VO NZ NB.
  assert (W := wf_api_all _ _ _ wf_nil HA HE).
  cbn [api] in H. destruct (_ && _)%bool eqn:C in H; [|discriminate].
  destruct (is_false t m) eqn:F.
  - injection H as <- <-. split; [|intros i I; apply val_of_app; exact I].
    rewrite val_last. rewrite (is_false_val t m vm (wf_ops t W) F VM). reflexivity.
  - assert (RD : val_of (t ++ [NRead a m o]) (length t) = read_val l (Some vm) vo).
    { rewrite val_last. cbn [node_val].
      rewrite (val_arr t a l VA), (val_num t m _ VM), (val_num t o _ VO). reflexivity. }
    destruct sym.
    + assert (Q : Some (t ++ [NRead a m o], length t) = Some (t', r)).
      { destruct (nth_error t a) as [n|]; [destruct n|]; exact H. }
      injection Q as <- <-. split; [exact RD|]. intros i I. apply val_of_app. exact I.
    + destruct NZ as [NZ|NZ]; [|discriminate].
      apply Z.eqb_neq in NZ. unfold read_val in *. rewrite NZ in *.
      destruct (nth_error t a) as [n|] eqn:E.
      2:{ injection H as <- <-. split; [exact RD|]. intros i I. apply val_of_app. exact I. }
      destruct (val_of_node t a n (wf_ops t W) E) as [Q _].
      destruct n; try (injection H as <- <-; split; [exact RD|]; intros i I; apply val_of_app; exact I).
      * (* fresh array *)
        injection H as <- <-. split; [|intros i I; apply val_of_app; exact I].
        rewrite val_last. cbn [node_val]. rewrite VA in Q. cbn in Q. injection Q as ->.
        destruct vo as [z|]; [|congruence]. destruct (0 <=? z)%Z; [|congruence].
        destruct (nth_error (repeat None len) (Z.to_nat z)) as [y|] eqn:N; [|congruence].
        apply nth_error_rep in N. rewrite N. reflexivity.
      * (* initialized array *)
        injection H as <- <-. split; [|auto].
        rewrite VA in Q. cbn [node_val] in Q.
        destruct (nth_error (values t) target) as [[]|]; try discriminate.
        destruct (num (values t) value) as [q|] eqn:NV; [|discriminate].
        injection Q as ->.
        destruct vo as [z|]; [|congruence]. destruct (0 <=? z)%Z; [|congruence].
        destruct (nth_error (repeat q len) (Z.to_nat z)) as [y|] eqn:N; [|congruence].
        apply nth_error_rep in N. subst y.
        unfold num in NV. unfold val_of.
        destruct (nth_error (values t) value) as [x|] eqn:X; [|discriminate].
        rewrite (nth_error_nth _ _ _ X). destruct x; try discriminate. congruence.
Qed.

Theorem api_init : forall calls t a v t' r l vv,
  api_all [] calls = Some t -> eval_use [] calls ->
  api t (CInit a v) = Some (t', r) -> val_of t a = VArr l -> val_of t v = VNum vv ->
  length l = len_of t a ->
  val_of t' r = VArr (repeat vv (length l)) /\
  (forall i, (i < length t)%nat -> val_of t' i = val_of t i).
Proof.
  intros calls t a v t' r l vv HA HE H VA VV LL.
  cbn [api] in H. destruct (_ && _)%bool eqn:C in H; [|discriminate].
  injection H as <- <-. split; [|intros i I; apply val_of_app; exact I].
  rewrite val_last. cbn [node_val].
  rewrite (val_arr t a l VA), (val_num t v _ VV), LL. reflexivity.
Qed.
