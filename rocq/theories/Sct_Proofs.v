(** Proofs about scatter programs: the graph, evaluation. *)
From Verif Require Import Base Sct_Model Sct_Spec.

Lemma mem_In h l : mem h l = true <-> In h l.
Proof.
  unfold mem. rewrite existsb_exists. split.
  - intros [x [H E]]. apply Nat.eqb_eq in E. subst. auto.
  - intros H. exists h. split; [auto|apply Nat.eqb_refl].
Qed.
Lemma mem_not_In h l : mem h l = false <-> ~ In h l.
Proof. rewrite <- mem_In. destruct (mem h l); split; congruence. Qed.
Lemma rop_eqb_eq a b : rop_eqb a b = true <-> a = b.
Proof. destruct a, b; simpl; split; congruence. Qed.
Lemma rop_eqb_refl a : rop_eqb a a = true. Proof. destruct a; auto. Qed.

Section Graph0.
Context {V : Type}.
Variable zero : V.
Notation var := (@var V).
Notation below := (@below V zero).
Notation getv := (@getv V zero).

Definition acyclic (vs : list var) : Prop := forall h d, In d (deps (getv vs h)) -> d < h.
Lemma below_lt vs : acyclic vs -> forall f h d, In d (below f vs h) -> d < h.
Proof.
  intros A. induction f as [|f IH]; intros h d H; [easy|].
  cbn [Sct_Model.below] in H. apply in_flat_map in H. destruct H as [e [He [<-|H]]]; [auto|].
  apply A in He. apply IH in H. lia.
Qed.
Lemma flat_map_ext_in {A B} (f g : A -> list B) l : (forall x, In x l -> f x = g x) -> flat_map f l = flat_map g l.
Proof. induction l as [|x l IH]; intros H; simpl; auto. rewrite H by (simpl; auto). rewrite IH; auto. intros; apply H; simpl; auto. Qed.
Lemma below_fuel vs : acyclic vs -> forall f f' h, h < f -> h < f' -> below f vs h = below f' vs h.
Proof.
  intros A. induction f as [|f IH]; intros f' h H H'; [lia|]. destruct f' as [|f']; [lia|].
  cbn [Sct_Model.below]. apply flat_map_ext_in. intros d Hd. apply A in Hd. f_equal. apply IH; lia.
Qed.
Definition same (vs vs' : list var) (d : nat) : Prop := v_k (getv vs d) = v_k (getv vs' d) /\ v_n (getv vs d) = v_n (getv vs' d).
Lemma same_deps vs vs' d : same vs vs' d -> deps (getv vs d) = deps (getv vs' d).
Proof. intros [H _]. unfold deps. rewrite H. auto. Qed.
Lemma below_agree vs vs' : forall f h, (forall d, d = h \/ In d (below f vs h) -> same vs vs' d) -> below f vs h = below f vs' h.
Proof.
  induction f as [|f IH]; intros h H; [auto|]. cbn [Sct_Model.below] in *.
  rewrite (same_deps vs vs') by auto. apply flat_map_ext_in. intros d Hd.
  assert (Hd' : In d (deps (getv vs h))) by (rewrite (same_deps vs vs') by auto; auto).
  f_equal. apply IH. intros e He. apply H. right. apply in_flat_map. exists d. split; [auto|]. simpl. destruct He as [->|He]; auto.
Qed.
Lemma getv_app vs v h : h < length vs -> getv (vs ++ [v]) h = getv vs h.
Proof. intros H. unfold Sct_Model.getv. apply app_nth1. auto. Qed.
Lemma getv_new vs v : getv (vs ++ [v]) (length vs) = v.
Proof. unfold Sct_Model.getv. rewrite app_nth2 by lia. rewrite Nat.sub_diag. auto. Qed.
Lemma getv_out vs h : length vs <= h -> getv vs h = @dflt V zero.
Proof. intros H. unfold Sct_Model.getv. apply nth_overflow. auto. Qed.
Lemma acyclic_app vs v : acyclic vs -> (forall d, In d (deps v) -> d < length vs) -> acyclic (vs ++ [v]).
Proof.
  intros A H h d Hd. destruct (Nat.lt_trichotomy h (length vs)) as [L|[->|L]].
  - rewrite getv_app in Hd by auto. apply A; auto.
  - rewrite getv_new in Hd. auto.
  - rewrite getv_out in Hd by (rewrite app_length; simpl; lia). easy.
Qed.
Lemma mapi_length {A B} (f : nat -> A -> B) l : forall i, length (mapi f i l) = length l.
Proof. induction l as [|x l IH]; intros i; simpl; auto. Qed.
Lemma mapi_nth {A B} (f : nat -> A -> B) d d' l : forall i h, h < length l -> nth h (mapi f i l) d' = f (i + h) (nth h l d).
Proof.
  induction l as [|x l IH]; intros i h H; simpl in H; [lia|]. destruct h as [|h]; simpl; [f_equal; lia|].
  rewrite IH by lia. f_equal; lia.
Qed.
Lemma getv_finish ts vs h : getv (mapi (finish ts) 0 vs) h = (if Nat.ltb h (length vs) then finish ts h (getv vs h) else @dflt V zero).
Proof.
  destruct (Nat.ltb_spec h (length vs)) as [L|L].
  - unfold Sct_Model.getv. rewrite (mapi_nth _ (dflt zero)) by auto. auto.
  - apply getv_out. rewrite mapi_length. auto.
Qed.
Lemma finish_k ts h (v : var) : v_k (finish ts h v) = v_k v. Proof. unfold finish. destruct (mem h ts); auto. Qed.
Lemma finish_n ts h (v : var) : v_n (finish ts h v) = v_n v. Proof. unfold finish. destruct (mem h ts); auto. Qed.
Lemma same_finish ts vs d : same vs (mapi (finish ts) 0 vs) d.
Proof.
  unfold same. rewrite getv_finish. destruct (Nat.ltb_spec d (length vs)) as [L|L].
  - rewrite finish_k, finish_n. auto.
  - rewrite getv_out by auto. auto.
Qed.
Lemma same_sym vs vs' d : same vs vs' d -> same vs' vs d. Proof. unfold same. intros [H H']. auto. Qed.
Lemma acyclic_finish ts vs : acyclic vs -> acyclic (mapi (finish ts) 0 vs).
Proof. intros A h d H. apply A. rewrite (same_deps _ (mapi (finish ts) 0 vs)); auto. apply same_finish. Qed.
Lemma getv_set vs h v d : h < length vs -> getv (set_nth h v vs) d = if Nat.eqb d h then v else getv vs d.
Proof.
  intros H. unfold Sct_Model.getv. destruct (Nat.eqb_spec d h) as [->|N].
  - apply nth_set_nth_eq; auto.
  - apply nth_set_nth_neq; auto.
Qed.
End Graph0.
Section Graph.
Context {V : Type}.
Variable zero : V.
Variable to_idx : V -> nat.
Variable truth : V -> bool.
Notation var := (@var V).
Notation den := (@den V zero to_idx truth).
Notation below := (@below V zero).
Notation getv := (@getv V zero).

Notation acyclic := (@acyclic V zero).
Notation same := (@same V zero).
Lemma den_fuel vs bs : acyclic vs -> forall f f' h k, h < f -> h < f' -> den f vs bs h k = den f' vs bs h k.
Proof.
  intros A. induction f as [|f IH]; intros f' h k H H'; [lia|]. destruct f' as [|f']; [lia|].
  pose proof (A h) as A'. unfold deps in A'. cbn [Sct_Model.den]. destruct (v_k (getv vs h)) as [x|b|g args|s i m]; auto.
  - f_equal. apply map_ext_in. intros a Ha. apply A' in Ha. apply IH; lia.
  - assert (Hs : s < h) by (apply A'; simpl; auto). assert (Hi : i < h) by (apply A'; simpl; auto). assert (Hm : m < h) by (apply A'; simpl; auto).
    rewrite (IH f' m) by lia. rewrite (IH f' i) by lia. rewrite (IH f' s) by lia. auto.
Qed.
Lemma den_agree vs vs' bs bs' : forall f h k,
  (forall d, d = h \/ In d (below f vs h) -> same vs vs' d /\ (forall b, v_k (getv vs d) = KMem b -> forall j, bs b j = bs' b j)) ->
  den f vs bs h k = den f vs' bs' h k.
Proof.
  induction f as [|f IH]; intros h k H; [auto|]. cbn [Sct_Model.den].
  assert (R : forall a, In a (deps (getv vs h)) -> forall k, den f vs bs a k = den f vs' bs' a k).
  { intros a Ha k'. apply IH. intros d Hd. apply H. right. cbn [Sct_Model.below]. apply in_flat_map. exists a. split; [auto|].
    simpl. destruct Hd as [->|]; auto. }
  assert (N : forall a, In a (deps (getv vs h)) -> v_n (getv vs a) = v_n (getv vs' a)).
  { intros a Ha. apply H. right. cbn [Sct_Model.below]. apply in_flat_map. exists a. split; [auto|]. left; auto. }
  destruct (H h (or_introl eq_refl)) as [[K _] B]. rewrite <- K. unfold deps in R, N.
  destruct (v_k (getv vs h)) as [x|b|g args|s i m]; auto.
  - f_equal. apply map_ext_in. intros a Ha. rewrite N by auto. apply R; auto.
  - rewrite !N by (simpl; auto). rewrite !(R m) by (simpl; auto). rewrite !(R i) by (simpl; auto). rewrite !(R s) by (simpl; auto). auto.
Qed.
(** Replacing a node by memory with its values *)
Lemma den_store vs bs h n b c :
  acyclic vs -> h < length vs -> n = v_n (getv vs h) ->
  (forall d, v_k (getv vs d) <> KMem b) ->
  (forall k, c k = den (length vs) vs bs h k) ->
  forall ex f u k, u < f -> f <= length vs ->
  den f (set_nth h {| v_k := KMem b; v_n := n; v_ex := ex |} vs) (fun b' => if Nat.eqb b' b then c else bs b') u k = den f vs bs u k.
Proof.
  intros A Hh Hn Hb Hc ex. induction f as [|f IH]; intros u k Hu Hf; [lia|].
  assert (N : forall a, v_n (getv (set_nth h {| v_k := KMem b; v_n := n; v_ex := ex |} vs) a) = v_n (getv vs a)).
  { intros a. rewrite getv_set by auto. destruct (Nat.eqb_spec a h) as [->|]; auto. }
  destruct (Nat.eq_dec u h) as [->|Ne].
  - cbn [Sct_Model.den]. rewrite getv_set by auto. rewrite Nat.eqb_refl. cbn [v_k]. rewrite Nat.eqb_refl.
    rewrite Hc. apply (den_fuel vs bs A (length vs) (S f)); lia.
  - cbn [Sct_Model.den]. rewrite getv_set by auto. destruct (Nat.eqb_spec u h) as [|_]; [easy|].
    pose proof (A u) as A'. unfold deps in A'. pose proof (Hb u) as Hb'.
    destruct (v_k (getv vs u)) as [x|b'|g args|s i m]; auto.
    + destruct (Nat.eqb_spec b' b) as [->|]; [congruence|auto].
    + f_equal. apply map_ext_in. intros a Ha. apply A' in Ha. rewrite N. apply IH; lia.
    + assert (Hs : s < u) by (apply A'; simpl; auto). assert (Hi : i < u) by (apply A'; simpl; auto). assert (Hm : m < u) by (apply A'; simpl; auto).
      rewrite !N. rewrite (IH m) by lia. rewrite (IH i) by lia. rewrite (IH s) by lia. auto.
Qed.
End Graph.

Section Memory.
Context {V : Type}.
Variable red : rop -> V -> V -> V.
Hypothesis red_comm : forall o, o <> RId -> forall a x y, red o (red o a x) y = red o (red o a y) x.
Notation upd := (@upd V).
Definition hit (b j : nat) (u : upd) : bool := Nat.eqb b (u_b u) && Nat.eqb j (u_i u).
Definition acc (us : list upd) (a : V) : V := fold_left (fun x u => red (u_op u) x (u_v u)) us a.
Lemma apply_at us : forall bs b j, fold_left (apply red) us bs b j = acc (filter (hit b j) us) (bs b j).
Proof.
  induction us as [|u us IH]; intros bs b j; [auto|]. cbn [fold_left filter]. rewrite IH. unfold apply at 1.
  unfold hit at 2. destruct (Nat.eqb b (u_b u) && Nat.eqb j (u_i u)); auto.
Qed.
Lemma acc_app us us' a : acc (us ++ us') a = acc us' (acc us a).
Proof. unfold acc. apply fold_left_app. Qed.
Lemma acc_perm o us us' : o <> RId -> Permutation us us' -> Forall (fun u => u_op u = o) us -> forall a, acc us a = acc us' a.
Proof.
  intros Ho P. induction P as [|u us us' P IH|u u' us|us us' us'' P IH P' IH']; intros F a.
  - auto.
  - inversion F; subst. simpl. apply IH; auto.
  - inversion F as [|? ? E F']; subst. inversion F' as [|? ? E' F'']; subst. unfold acc. cbn [fold_left]. rewrite E'. rewrite red_comm by auto. auto.
  - rewrite IH by auto. apply IH'. rewrite <- P. auto.
Qed.
Lemma filter_perm {A} (p : A -> bool) l l' : Permutation l l' -> Permutation (filter p l) (filter p l').
Proof.
  induction 1 as [|x l l' P IH|x y l|l l' l'' P IH P' IH']; simpl; auto.
  - destruct (p x); auto.
  - destruct (p x), (p y); auto. constructor.
  - etransitivity; eauto.
Qed.
Lemma acc_perm_small us us' : Permutation us us' -> length us <= 1 -> forall a, acc us a = acc us' a.
Proof.
  intros P L a. destruct us as [|u [|u' us]]; [..|simpl in L; lia].
  - apply Permutation_nil in P. subst. auto.
  - apply Permutation_length_1_inv in P. subst. auto.
Qed.
Lemma hit_nodup b j us : NoDup (map u_i us) -> length (filter (hit b j) us) <= 1.
Proof.
  induction us as [|u us IH]; intros N; [simpl; lia|]. simpl in *. inversion N as [|? ? N1 N2]; subst.
  destruct (hit b j u) eqn:E; [|auto]. simpl. cut (filter (hit b j) us = []); [intros ->; simpl; lia|].
  clear IH N2 N. induction us as [|u' us IH]; [auto|]. simpl in *. destruct (hit b j u') eqn:E'; [|apply IH; tauto].
  exfalso. apply N1. left. unfold hit in *. apply andb_true_iff in E, E'. destruct E as [_ E], E' as [_ E'].
  apply Nat.eqb_eq in E, E'. congruence.
Qed.
End Memory.
