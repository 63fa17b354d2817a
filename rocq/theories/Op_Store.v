(** The variable store: appending nodes and resizing in place keep all values. *)
From Verif Require Import Base Op_Model Op_Spec.
Local Open Scope N_scope.

Section Store.
Variable fop : kind -> ty -> list ty -> list N -> N.
Notation value := (value fop).
Notation denote := (denote fop).
Notation eval_node := (eval_node fop).
Notation ir := (ir fop).
Notation wf := (wf fop).
Notation kept := (kept fop).
Notation built := (built fop).

Lemma denote_snoc : forall st v, denote (st ++ [v]) = denote st ++ [eval_node (denote st) v].
Proof using. intros. unfold Op_Model.denote. now rewrite fold_left_app. Qed.
Lemma denote_length : forall st, length (denote st) = length st.
Proof using.
  induction st using rev_ind; [reflexivity|].
  now rewrite denote_snoc, !app_length, IHst.
Qed.
Lemma denote_app : forall s st, exists e, denote (st ++ s) = denote st ++ e.
Proof using.
  induction s using rev_ind; intros.
  - exists []. now rewrite !app_nil_r.
  - destruct (IHs st) as [e E]. rewrite app_assoc, denote_snoc, E.
    exists (e ++ [eval_node (denote st ++ e) x]). now rewrite app_assoc.
Qed.
Lemma denote_nth : forall st i v, nth_error st i = Some v ->
  nth_error (denote st) i = Some (eval_node (denote (firstn i st)) v).
Proof using.
  intros st i v H.
  destruct (nth_error_split _ _ H) as (l1 & l2 & E & L). subst st i.
  rewrite firstn_app, firstn_all, Nat.sub_diag. cbn [firstn]. rewrite app_nil_r.
  change (v :: l2) with ([v] ++ l2). rewrite app_assoc.
  destruct (denote_app l2 (l1 ++ [v])) as [e E]. rewrite E, denote_snoc.
  rewrite nth_error_app1 by (rewrite app_length, denote_length; cbn; lia).
  rewrite nth_error_app2 by (rewrite denote_length; lia).
  now rewrite denote_length, Nat.sub_diag.
Qed.

Lemma get_lt : forall st h v, get st h = Some v -> (1 <= h <= length st)%nat.
Proof using. intros st [|h] v H; [discriminate|]. apply nth_error_Some_lt in H || (assert (h < length st)%nat by (apply nth_error_Some; cbn in H; congruence)). lia. Qed.
Lemma get_app : forall st s h v, get st h = Some v -> get (st ++ s) h = Some v.
Proof using.
  intros st s h v H. pose proof (get_lt _ _ _ H). destruct h; [discriminate|]. cbn in *.
  rewrite nth_error_app1; [assumption|lia].
Qed.
Lemma get_new : forall st v, get (st ++ [v]) (S (length st)) = Some v.
Proof using. intros. cbn. rewrite nth_error_app2, Nat.sub_diag by lia. reflexivity. Qed.
Lemma lookup_app : forall e e' h x, lookup e h = Some x -> lookup (e ++ e') h = Some x.
Proof using.
  intros e e' [|h] x H; [discriminate|]. cbn in *.
  rewrite nth_error_app1; [assumption|]. apply nth_error_Some. congruence.
Qed.
Lemma lookup_get : forall st h v, get st h = Some v ->
  lookup (denote st) h = Some (eval_node (denote (firstn (h - 1) st)) v).
Proof using.
  intros st [|h] v H; [discriminate|]. cbn [lookup]. replace (S h - 1)%nat with h by lia. now apply denote_nth.
Qed.
Lemma value_app : forall st s h v l, get st h = Some v -> value (st ++ s) h l = value st h l.
Proof using.
  intros st s h v l H. unfold Op_Model.value, read. destruct (denote_app s st) as [e E]. rewrite E.
  pose proof (lookup_get _ _ _ H) as L. now rewrite (lookup_app _ _ _ _ L), L.
Qed.

Definition extends (st st' : store) : Prop := exists s, st' = st ++ s.
Lemma extends_refl : forall st, extends st st.
Proof using. intros. exists []. now rewrite app_nil_r. Qed.
Lemma extends_trans : forall a b c, extends a b -> extends b c -> extends a c.
Proof using. intros a b c [s ->] [s' ->]. exists (s ++ s'). now rewrite app_assoc. Qed.
Lemma extends_kept : forall st st', extends st st' -> kept st st'.
Proof using.
  intros st st' [s ->] h t n d G. split.
  - exists n. split; [now apply get_app|auto].
  - intros. eapply value_app; eauto.
Qed.
Lemma kept_refl : forall st, kept st st.
Proof using. intros. apply extends_kept, extends_refl. Qed.
Lemma has_extends : forall st st' h t n, extends st st' -> has st h t n -> has st' h t n.
Proof using. intros st st' h t n [s ->] [d G]. exists d. now apply get_app. Qed.

(** Values of a node *)
Definition types (st : store) (hs : list nat) : option (list ty) :=
  seq_opt (map (fun d => option_map v_ty (get st d)) hs).
Definition values (st : store) (hs : list nat) (l : N) : option (list N) :=
  seq_opt (map (fun d => value st d l) hs).
Lemma seq_opt_ext : forall A B (f g : B -> option A) l, (forall x, In x l -> f x = g x) ->
  seq_opt (map f l) = seq_opt (map g l).
Proof using.
  intros A B f g l. induction l as [|x l IH]; intros H; cbn; [reflexivity|].
  rewrite (H x) by now left. destruct (g x); cbn; [|reflexivity].
  rewrite IH; [reflexivity|]. intros. apply H. now right.
Qed.
Lemma lookup_types : forall st h, option_map (fun e => fst (fst e)) (lookup (denote st) h) = option_map v_ty (get st h).
Proof using.
  intros st h. destruct (get st h) eqn:G.
  - now rewrite (lookup_get _ _ _ G).
  - destruct h; [reflexivity|]. cbn in *. apply nth_error_None in G.
    assert (nth_error (denote st) h = None) as -> by (apply nth_error_None; now rewrite denote_length). reflexivity.
Qed.
Definition node_val (st : store) (k : kind) (t : ty) (hs : list nat) (l : N) : option N :=
  let? ts := types st hs in let? vs := values st hs l in ir k t ts vs.
Lemma eval_node_op : forall st k t n hs l,
  snd (eval_node (denote st) (mkVar t n (Op k hs))) l = node_val st k t hs l.
Proof using.
  intros. cbn. unfold node_val, types, values.
  rewrite (seq_opt_ext _ _ _ (fun d => option_map v_ty (get st d))) by (intros; apply lookup_types).
  reflexivity.
Qed.
Lemma value_new : forall st v l,
  value (st ++ [v]) (S (length st)) l = snd (eval_node (denote st) v) (if v_size v =? 1 then 0 else l).
Proof using.
  intros. unfold Op_Model.value, read. rewrite denote_snoc. cbn [lookup].
  rewrite nth_error_app2, denote_length, Nat.sub_diag by (rewrite denote_length; lia). reflexivity.
Qed.

(** Lane 0 stands for all lanes of a scalar. *)
Lemma value_scalar : forall st h v l, get st h = Some v -> v_size v = 1 -> value st h l = value st h 0.
Proof using.
  intros st h v l G S. unfold Op_Model.value, read. rewrite (lookup_get _ _ _ G). cbn. rewrite S.
  now change (1 =? 1) with true.
Qed.
Lemma values_scalar : forall st hs l, (forall h, In h hs -> exists v, get st h = Some v /\ v_size v = 1) ->
  values st hs l = values st hs 0.
Proof using.
  intros st hs l H. unfold values. apply seq_opt_ext. intros h I. destruct (H h I) as (v & G & S).
  eapply value_scalar; eauto.
Qed.
Lemma value_literal : forall st h v x l, get st h = Some v -> v_desc v = Lit x -> value st h l = Some x.
Proof using.
  intros st h v x l G D. unfold Op_Model.value, read. rewrite (lookup_get _ _ _ G). cbn. now rewrite D.
Qed.

(** *** Appending *)
Lemma wf_push : forall st v, wf st -> var_ok (st ++ [v]) (length st) v ->
  (forall l x, value (st ++ [v]) (S (length st)) l = Some x -> x < 2 ^ width (v_ty v)) -> wf (st ++ [v]).
Proof using.
  intros st v [W R] V X. split.
  - intros i u H. destruct (Nat.lt_ge_cases i (length st)).
    + rewrite nth_error_app1 in H by assumption. destruct (W i u H) as [W1 W2]. split; [assumption|].
      destruct (v_desc u); auto. eapply Forall_impl; [|exact W2]. cbn beta. intros d (D1 & w & D2 & D3).
      split; [assumption|]. exists w. split; [now apply get_app|assumption].
    + rewrite nth_error_app2 in H by assumption. destruct (i - length st)%nat eqn:E.
      * cbn in H. injection H as <-. assert (i = length st) as -> by lia. assumption.
      * cbn in H. now destruct n.
  - intros h u l x G H. destruct (get st h) as [u'|] eqn:G'.
    + rewrite (get_app st [v] h u' G') in G. injection G as <-.
      rewrite (value_app _ _ _ _ _ G') in H. eapply R; eauto.
    + assert (h = S (length st)).
      { pose proof (get_lt _ _ _ G) as L. rewrite app_length in L. cbn in L. destruct h; [lia|]. cbn in G'.
        apply nth_error_None in G'. lia. }
      subst h. rewrite get_new in G. injection G as <-. eapply X; eauto.
Qed.

(** The internal version of [built]: an explicit value per lane, and how the store
    may change. *)
Definition made (R : store -> store -> Prop) (st : store) (res : out (store * nat)) (t : ty) (n : N)
    (f : N -> option N) : Prop :=
  exists st' r, res = Ok (st', r) /\ wf st' /\ R st st' /\ has st' r t n /\
    forall l x, f l = Some x -> value st' r l = Some x.

Lemma made_weaken : forall st res t n f g, made extends st res t n f ->
  (forall l x, g l = Some x -> f l = Some x) -> made kept st res t n g.
Proof using.
  intros st res t n f g (st' & r & E & W & X & H & V) I. exists st', r.
  split; [exact E|]. split; [exact W|]. split; [now apply extends_kept|]. split; [exact H|]. auto.
Qed.
Lemma made_ext : forall R st res t n f g, made R st res t n f ->
  (forall l x, g l = Some x -> f l = Some x) -> made R st res t n g.
Proof using.
  intros R st res t n f g (st' & r & E & W & X & H & V) I. exists st', r. repeat (split; [assumption|]). auto.
Qed.

Lemma made_push : forall st t n d f, wf st -> var_ok (st ++ [mkVar t n d]) (length st) (mkVar t n d) ->
  (forall l x, snd (eval_node (denote st) (mkVar t n d)) l = Some x -> x < 2 ^ width t) ->
  (forall l x, f l = Some x -> snd (eval_node (denote st) (mkVar t n d)) (if n =? 1 then 0 else l) = Some x) ->
  made extends st (push st (mkVar t n d)) t n f.
Proof using.
  intros st t n d f W V X F. unfold push. exists (st ++ [mkVar t n d]), (S (length st)).
  split; [reflexivity|]. split; [apply wf_push; auto|].
  { intros l x H. rewrite value_new in H. eapply X; eauto. }
  split; [now exists [mkVar t n d]|]. split; [exists d; apply get_new|].
  intros l x H. rewrite value_new. cbn [v_size]. auto.
Qed.

Lemma made_node : forall st k t n hs, wf st -> 1 <= n ->
  (forall h, In h hs -> exists v, get st h = Some v /\ (v_size v = 1 \/ v_size v = n)) ->
  (forall l x, node_val st k t hs l = Some x -> x < 2 ^ width t) ->
  made extends st (node st k t n hs) t n (node_val st k t hs).
Proof using.
  intros st k t n hs W N H X. apply made_push; auto.
  - split; [exact N|]. cbn. apply Forall_forall. intros h I. destruct (H h I) as (v & G & S). split.
    + apply (get_lt _ _ _ G).
    + exists v. split; [now apply get_app|assumption].
  - intros l x. rewrite eval_node_op. apply X.
  - intros l x E. rewrite eval_node_op. destruct (N.eqb_spec n 1) as [->|]; [|assumption].
    rewrite <- E. unfold node_val. rewrite (values_scalar st hs l); [reflexivity|].
    intros h I. destruct (H h I) as (v & G & S). exists v. split; [assumption|lia].
Qed.

Lemma made_literal : forall st t x n, wf st -> 1 <= n -> (t = Bool -> x < 2) ->
  made extends st (literal st t x n) t n (fun _ => Some (wrap t x)).
Proof using.
  intros st t x n W N B. unfold literal. destruct (N.eqb_spec n 0); [lia|].
  assert (E : (if is_bool t then x mod 2 ^ 8 else wrap t x) = wrap t x).
  { destruct t; cbn; try reflexivity. unfold wrap. cbn [width]. specialize (B eq_refl).
    rewrite !N.mod_small; [reflexivity| |]; [now change (2 ^ 1) with 2|]. change (2 ^ 8) with 256. lia. }
  rewrite E.
  assert (L : wrap t x < 2 ^ width t) by (apply N.mod_lt, N.pow_nonzero; discriminate).
  apply made_push; auto.
  - split; [exact N|]. exact L.
  - cbn. intros l y H. now injection H as <-.
Qed.

(** *** Resizing *)
Definition env_eq (e e' : list entry) : Prop :=
  forall h, option_map (fun x => fst (fst x)) (lookup e' h) = option_map (fun x => fst (fst x)) (lookup e h) /\
    forall l, read e' h l = read e h l.
Lemma eval_env_eq : forall e e' v, env_eq e e' -> forall l, snd (eval_node e' v) l = snd (eval_node e v) l.
Proof using.
  intros e e' v H l. cbn. destruct (v_desc v); try reflexivity.
  rewrite (seq_opt_ext _ _ _ (fun d => option_map (fun e0 => fst (fst e0)) (lookup e d))) by (intros; apply H).
  destruct (seq_opt (map _ deps)); cbn; [|reflexivity].
  rewrite (seq_opt_ext _ _ _ (fun d => read e d l)) by (intros; apply H). reflexivity.
Qed.
Lemma lookup_snoc : forall e x h, lookup (e ++ [x]) h =
  if Nat.eqb h (S (length e)) then Some x else lookup e h.
Proof using.
  intros e x [|h]; [reflexivity|]. cbn [lookup]. destruct (Nat.eqb_spec (S h) (S (length e))) as [E|E].
  - injection E as ->. now rewrite nth_error_app2, Nat.sub_diag by lia.
  - destruct (Nat.lt_ge_cases h (length e)).
    + now rewrite nth_error_app1.
    + transitivity (@None entry); [|symmetry]; apply nth_error_None; rewrite ?app_length; cbn; lia.
Qed.
Lemma env_eq_snoc : forall e e' v v', env_eq e e' -> length e = length e' -> v_ty v' = v_ty v ->
  (forall l, snd (eval_node e' v') (if v_size v' =? 1 then 0 else l) =
             snd (eval_node e v) (if v_size v =? 1 then 0 else l)) ->
  env_eq (e ++ [eval_node e v]) (e' ++ [eval_node e' v']).
Proof using.
  intros e e' v v' H L T V h. rewrite !lookup_snoc, <- L. unfold read. rewrite !lookup_snoc, <- L.
  destruct (Nat.eqb h (S (length e))).
  - cbn [option_map fst]. split; [cbn; now rewrite T|]. intros l. apply (V l).
  - split; [apply H|]. intros l. destruct (H h) as [_ R]. apply (R l).
Qed.
Lemma env_eq_refl : forall e, env_eq e e.
Proof using. now intros e h. Qed.
Lemma env_eq_tail : forall s st st', env_eq (denote st) (denote st') -> length st = length st' ->
  env_eq (denote (st ++ s)) (denote (st' ++ s)).
Proof using.
  induction s as [|v s IH] using rev_ind; intros st st' H L; [now rewrite !app_nil_r|].
  rewrite !app_assoc, !denote_snoc. apply env_eq_snoc; [now apply IH| | reflexivity|].
  - rewrite !denote_length, !app_length. lia.
  - intros l. apply eval_env_eq. now apply IH.
Qed.

Lemma set_nth_split : forall (l1 l2 : list var) v v', set_nth (length l1) v' (l1 ++ v :: l2) = l1 ++ v' :: l2.
Proof using. induction l1; intros; cbn; [reflexivity|]. now rewrite IHl1. Qed.

Lemma get_split : forall st h v, get st h = Some v -> exists l1 l2, st = l1 ++ v :: l2 /\ h = S (length l1).
Proof using.
  intros st [|h] v G; [discriminate|]. destruct (nth_error_split _ _ G) as (l1 & l2 & E & L).
  exists l1, l2. split; [assumption|lia].
Qed.

Lemma firstn_prefix : forall (l1 l2 : list var), firstn (length l1) (l1 ++ l2) = l1.
Proof using. intros. rewrite firstn_app, firstn_all, Nat.sub_diag. apply app_nil_r. Qed.

Lemma get_mid : forall (l1 l2 : list var) v h, get (l1 ++ v :: l2) h =
  if Nat.eqb h (S (length l1)) then Some v else get (l1 ++ mkVar (v_ty v) 0 Ctr :: l2) h.
Proof using.
  intros l1 l2 v [|h]; [reflexivity|]. cbn [get]. destruct (Nat.eqb_spec (S h) (S (length l1))) as [E|E].
  - injection E as ->. now rewrite nth_error_app2, Nat.sub_diag by lia.
  - destruct (Nat.lt_ge_cases h (length l1)).
    + now rewrite !nth_error_app1.
    + rewrite !nth_error_app2 by lia. destruct (h - length l1)%nat eqn:D; [lia|reflexivity].
Qed.

Lemma inplace_get : forall l1 l2 t n n' d h u, get (l1 ++ mkVar t n d :: l2) h = Some u ->
  exists u', get (l1 ++ mkVar t n' d :: l2) h = Some u' /\ v_ty u' = v_ty u /\
    (u' = u \/ h = S (length l1) /\ u = mkVar t n d /\ u' = mkVar t n' d).
Proof using.
  intros l1 l2 t n n' d h u G. rewrite get_mid in *. cbn [v_ty] in *.
  destruct (Nat.eqb_spec h (S (length l1))).
  - injection G as <-. eexists. split; [reflexivity|]. split; [reflexivity|]. right. auto.
  - exists u. auto.
Qed.

Section Inplace.
Variables (l1 l2 : list var) (t : ty) (n n' : N) (d : desc).
Local Notation v := (mkVar t n d).
Local Notation v' := (mkVar t n' d).
Hypothesis W : wf (l1 ++ v :: l2).
Hypothesis scalar : n = 1 \/ exists x, d = Lit x.
Hypothesis notarr : forall f, d <> Arr f.
Hypothesis pos : 1 <= n'.
Hypothesis free : existsb (depends (S (length l1))) (l1 ++ v :: l2) = false.

Lemma wf_mid : var_ok (l1 ++ v :: l2) (length l1) v.
Proof using W. destruct W as [W1 _]. apply W1. rewrite nth_error_app2, Nat.sub_diag by apply le_n. reflexivity. Qed.
Lemma not_ctr : d <> Ctr.
Proof using W scalar.
  intros E. pose proof wf_mid as [_ V]. cbn in V. rewrite E in V. destruct scalar as [?|[x ?]]; congruence.
Qed.
Lemma inplace_env : env_eq (denote (l1 ++ v :: l2)) (denote (l1 ++ v' :: l2)).
Proof using W scalar notarr.
  clear pos free. change (v :: l2) with ([v] ++ l2). change (v' :: l2) with ([v'] ++ l2). rewrite !app_assoc.
  apply env_eq_tail; [|rewrite !app_length; reflexivity].
  rewrite !denote_snoc. apply env_eq_snoc; [apply env_eq_refl|reflexivity|reflexivity|].
  intros l. cbn [v_size]. pose proof not_ctr as NC. pose proof wf_mid as [_ V].
  destruct d as [x|f| |k deps] eqn:D; [reflexivity|now destruct (notarr f)|now destruct NC|].
  destruct scalar as [->|[x ?]]; [|discriminate]. change (1 =? 1) with true. cbn iota.
  transitivity (node_val l1 k t deps (if n' =? 1 then 0 else l)).
  - apply (eval_node_op l1 k t n' deps).
  - transitivity (node_val l1 k t deps 0); [|symmetry; apply (eval_node_op l1 k t 1 deps)].
    unfold node_val. rewrite (values_scalar l1 deps); [reflexivity|].
    intros h I. cbn in V. rewrite Forall_forall in V. destruct (V h I) as (L & u & G & S).
    exists u. split; [|lia]. destruct h; [discriminate|]. cbn in *. now rewrite nth_error_app1 in G by lia.
Qed.
Lemma inplace_value : forall h l, value (l1 ++ v' :: l2) h l = value (l1 ++ v :: l2) h l.
Proof using W scalar notarr. clear pos free. intros. apply inplace_env. Qed.
Lemma inplace_wf : wf (l1 ++ v' :: l2).
Proof using W scalar notarr pos free.
  pose proof W as [W1 W2]. split.
  - intros i u H.
    assert (G : get (l1 ++ v' :: l2) (S i) = Some u) by exact H.
    destruct (Nat.eq_dec i (length l1)) as [->|NE].
    + rewrite get_mid, Nat.eqb_refl in G. injection G as <-. split; [exact pos|].
      pose proof wf_mid as [_ V]. cbn in *. destruct d as [x|f| |k deps]; auto.
      * destruct scalar as [?|[x ?]]; [congruence|discriminate].
      * destruct scalar as [?|[x ?]]; [|discriminate]. eapply Forall_impl; [|exact V]. cbn beta.
        intros h (L & u & G & S). split; [assumption|].
        destruct (inplace_get _ _ _ _ n' _ h u G) as (u' & G' & _ & [->|(-> & -> & ->)]).
        -- exists u. split; [assumption|lia].
        -- lia.
    + assert (G0 : get (l1 ++ v :: l2) (S i) = Some u).
      { rewrite get_mid in G |- *. destruct (Nat.eqb_spec (S i) (S (length l1))); [lia|]. assumption. }
      destruct (W1 i u G0) as [P Q]. split; [assumption|].
      destruct (v_desc u) as [| | |k deps] eqn:D; auto. rewrite Forall_forall in *. intros h I.
      destruct (Q h I) as (L & w & Gw & SZ). split; [assumption|].
      destruct (inplace_get _ _ _ _ n' _ h w Gw) as (w' & Gw' & _ & [->|(E & _ & _)]); [exists w; auto|].
      exfalso. subst h.
      assert (existsb (depends (S (length l1))) (l1 ++ v :: l2) = true); [|congruence].
      apply existsb_exists. exists u. split; [eapply nth_error_In; exact G0|].
      unfold depends. rewrite D. apply existsb_exists. exists (S (length l1)). split; [assumption|apply Nat.eqb_refl].
  - intros h u l x G H. rewrite inplace_value in H.
    assert (exists u0, get (l1 ++ v :: l2) h = Some u0 /\ v_ty u0 = v_ty u) as (u0 & G0 & T).
    { rewrite get_mid in G |- *. cbn [v_ty] in *. destruct (Nat.eqb h (S (length l1))).
      - injection G as <-. eexists. split; reflexivity.
      - eauto. }
    rewrite <- T. eapply W2; eauto.
Qed.
Lemma inplace_kept : kept (l1 ++ v :: l2) (l1 ++ v' :: l2).
Proof using W scalar notarr.
  clear pos free. intros h t0 n0 d0 G. split; [|intros; apply inplace_value].
  destruct (inplace_get _ _ _ _ n' _ h _ G) as (u' & G' & T & [->|(-> & E & ->)]).
  - exists n0. auto.
  - injection E as -> -> ->. exists n'. auto.
Qed.
End Inplace.

Variable uniq : store -> nat -> bool.
Lemma made_resize : forall st h t n m, wf st -> has st h t n -> (n = m \/ n = 1 \/ exists x, literal_is st h x) ->
  1 <= m -> made kept st (resize uniq st h m) t m (value st h).
Proof using.
  intros st h t n m W [d G] C M. unfold resize. rewrite G. cbn [v_size v_ty v_desc].
  destruct (N.eqb_spec n m) as [->|NE].
  { exists st, h. split; [reflexivity|]. split; [assumption|]. split; [apply kept_refl|].
    split; [now exists d|auto]. }
  assert (SZ : n = 1 \/ exists x, d = Lit x).
  { destruct C as [?|[?|(x & u & G' & D)]]; [congruence|now left|right]. rewrite G in G'. injection G' as <-. eauto. }
  replace (negb (n =? 1) && negb (is_literal (mkVar t n d))) with false.
  2:{ destruct SZ as [->|[x ->]]; [reflexivity|]. cbn. now rewrite andb_false_r. }
  destruct (_ && negb (existsb (depends h) st)) eqn:I.
  - apply andb_prop in I as [I F]. apply andb_prop in I as [I _]. apply negb_true_iff in F.
    destruct (get_split _ _ _ G) as (l1 & l2 & -> & ->). cbn [Nat.sub]. rewrite Nat.sub_0_r, set_nth_split.
    assert (NA : forall f, d <> Arr f) by (intros f ->; discriminate).
    exists (l1 ++ mkVar t m d :: l2), (S (length l1)). split; [reflexivity|].
    split; [eapply inplace_wf; eauto|]. split; [eapply inplace_kept; eauto|].
    split; [exists d; now rewrite get_mid, Nat.eqb_refl|].
    intros l x V. rewrite (inplace_value l1 l2 t n m d); auto.
  - clear I. destruct d as [x|f| |k deps].
    + eapply made_weaken; [apply made_literal; auto|].
      * intros ->. destruct W as [W _]. destruct h; [discriminate|]. destruct (W _ _ G) as [_ V]. exact V.
      * intros l y V. rewrite (value_literal _ _ _ x l G eq_refl) in V. injection V as <-. f_equal.
        apply N.mod_small. destruct W as [W _]. destruct h; [discriminate|]. destruct (W _ _ G) as [_ V]. exact V.
    + destruct SZ as [->|[? ?]]; [|discriminate]. eapply made_weaken; [apply made_node; auto|].
      * intros h' [<-|[]]. eauto.
      * intros l y. unfold node_val, types, values. cbn [map seq_opt]. rewrite G. cbn.
        destruct (value st h l) eqn:V; [|discriminate]. cbn. intros E. injection E as <-.
        destruct W as [_ R]. apply (R _ _ _ _ G V).
      * intros l y V. unfold node_val, types, values. cbn [map seq_opt]. rewrite G, V. reflexivity.
    + destruct SZ as [->|[? ?]]; [|discriminate]. eapply made_weaken; [apply made_node; auto|].
      * intros h' [<-|[]]. eauto.
      * intros l y. unfold node_val, types, values. cbn [map seq_opt]. rewrite G. cbn.
        destruct (value st h l) eqn:V; [|discriminate]. cbn. intros E. injection E as <-.
        destruct W as [_ R]. apply (R _ _ _ _ G V).
      * intros l y V. unfold node_val, types, values. cbn [map seq_opt]. rewrite G, V. reflexivity.
    + destruct SZ as [->|[? ?]]; [|discriminate]. eapply made_weaken; [apply made_node; auto|].
      * intros h' [<-|[]]. eauto.
      * intros l y. unfold node_val, types, values. cbn [map seq_opt]. rewrite G. cbn.
        destruct (value st h l) eqn:V; [|discriminate]. cbn. intros E. injection E as <-.
        destruct W as [_ R]. apply (R _ _ _ _ G V).
      * intros l y V. unfold node_val, types, values. cbn [map seq_opt]. rewrite G, V. reflexivity.
Qed.

(** Sequencing *)
Lemma kept_trans : forall a b c, kept a b -> kept b c -> kept a c.
Proof using.
  intros a b c K1 K2 h t n d H. destruct (K1 h t n d H) as [(n1 & H1 & D1) V1]. destruct (K2 h t n1 d H1) as [(n2 & H2 & D2) V2].
  split; [|intros; now rewrite V2, V1]. exists n2. split; [assumption|].
  destruct D2 as [->|[->|?]]; auto. destruct D1 as [<-|[?|?]]; auto.
Qed.
Lemma kept_extends : forall a b c, extends a b -> kept b c -> kept a c.
Proof using. intros a b c E. apply kept_trans. now apply extends_kept. Qed.
Lemma made_trans : forall st st' res t n f, extends st st' -> made kept st' res t n f -> made kept st res t n f.
Proof using.
  intros st st' res t n f X (st2 & r & E & W & K & H & V). exists st2, r.
  repeat (split; [assumption|]). split; [eapply kept_extends; eauto|]. split; assumption.
Qed.
Lemma made_then : forall st res t n f g (k : store -> nat -> out (store * nat)) t' n', made kept st res t n f ->
  (forall st' r, wf st' -> kept st st' -> has st' r t n -> (forall l x, f l = Some x -> value st' r l = Some x) ->
     made kept st' (k st' r) t' n' g) ->
  made kept st (obind res (fun r => k (fst r) (snd r))) t' n' g.
Proof using.
  intros st res t n f g k t' n' (st1 & r1 & -> & W1 & K1 & H1 & V1) H. cbn [obind fst snd].
  destruct (H st1 r1 W1 K1 H1 V1) as (st2 & r2 & E & W2 & K2 & H2 & V2). exists st2, r2.
  split; [exact E|]. split; [exact W2|]. split; [now apply kept_trans with st1|]. split; assumption.
Qed.
End Store.
