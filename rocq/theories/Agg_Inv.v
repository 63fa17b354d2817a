(** The state of variables and memory, and the elementary changes to it. *)
From Verif Require Import Base Agg_Model Agg_Spec.
Local Open Scope N_scope.

Section Inv.
Variable ar : arith.

Definition fits (s : st) (v : var) (g : svar) : Prop :=
  v_ty v = g_ty g /\ v_size v = g_size g /\ made (g_size g) /\
  (g_def g = true -> v_kind v <> KUndef /\ forall l, l < g_size g -> content ar s v l = g_val g l).

Record ok (s : st) (G : list svar) : Prop := {
  ok_len : length (s_vars s) = length G;
  ok_var : forall i v g, nth_error (s_vars s) i = Some v -> nth_error G i = Some g -> fits s v g;
  ok_ev : forall i v b, nth_error (s_vars s) i = Some v -> v_kind v = KEval b ->
    exists x, nth_error (s_bufs s) b = Some x /\ v_size v <= b_cap x;
  ok_pend : forall q, In q (s_pend s) -> (q_buf q < length (s_bufs s))%nat /\
    forall i v, nth_error (s_vars s) i = Some v -> v_kind v = KEval (q_buf q) -> v_dirty v = true;
  ok_pad : forall i v g b, nth_error (s_vars s) i = Some v -> nth_error G i = Some g -> g_pad g = true -> v_kind v = KEval b ->
    (exists x, nth_error (s_bufs s) b = Some x /\ padded (v_size v) <= b_cap x) /\
    forall j w, nth_error (s_vars s) j = Some w -> v_kind w = KEval b -> v_size w <= v_size v }.

Lemma ok_empty : ok empty [].
Proof.
  constructor; cbn; auto; intros; try (destruct i; discriminate); contradiction.
Qed.

Lemma var_of s G i g : ok s G -> nth_error G i = Some g -> exists v, nth_error (s_vars s) i = Some v /\ fits s v g.
Proof.
  intros O E. destruct (nth_error (s_vars s) i) as [v|] eqn:V.
  - exists v. split; auto. exact (ok_var _ _ O _ _ _ V E).
  - apply nth_error_None in V. rewrite (ok_len _ _ O) in V. apply nth_error_None in V. congruence.
Qed.
Lemma spec_of s G i v : ok s G -> nth_error (s_vars s) i = Some v -> exists g, nth_error G i = Some g /\ fits s v g.
Proof.
  intros O V. destruct (nth_error G i) as [g|] eqn:E.
  - exists g. split; auto. exact (ok_var _ _ O _ _ _ V E).
  - apply nth_error_None in E. rewrite <- (ok_len _ _ O) in E. apply nth_error_None in E. congruence.
Qed.

(** ** Pending scatters *)
Lemma settle_none p b d : (forall q, In q p -> q_buf q <> b) -> settle ar p b d = d.
Proof.
  revert d. induction p as [|q p IH]; intros d H; cbn; auto.
  destruct (Nat.eqb_spec (q_buf q) b) as [E|E]; [exfalso; exact (H q (or_introl eq_refl) E)|].
  apply IH. intros; apply H; now right.
Qed.
Lemma clean_mem s G i v b : ok s G -> nth_error (s_vars s) i = Some v -> v_kind v = KEval b -> v_dirty v = false ->
  forall d, settle ar (s_pend s) b d = d.
Proof.
  intros O V K D d. apply settle_none. intros q Q E. subst b.
  pose proof (proj2 (ok_pend _ _ O q Q) i v V K). congruence.
Qed.
Lemma clean_content s G i v b l : ok s G -> nth_error (s_vars s) i = Some v -> v_kind v = KEval b -> v_dirty v = false ->
  content ar s v l = mem s b l.
Proof. intros O V K D. unfold content. rewrite K. now rewrite (clean_mem s G i v b O V K D). Qed.

Lemma flush_bufs_nth p l : forall b k, nth_error (flush_bufs ar p b l) k =
  match nth_error l k with Some x => Some {| b_cap := b_cap x; b_dat := settle ar p (b + k) (b_dat x) |} | None => None end.
Proof.
  induction l as [|x l IH]; intros b k; destruct k; cbn; auto.
  - now rewrite Nat.add_0_r.
  - rewrite IH. now rewrite Nat.add_succ_r.
Qed.
Lemma flush_bufs_length p l : forall b, length (flush_bufs ar p b l) = length l.
Proof. induction l; intros; cbn; auto. Qed.
Lemma flush_mem s b : (b < length (s_bufs s))%nat -> mem (flush ar s) b = settle ar (s_pend s) b (mem s b).
Proof.
  intros L. unfold mem, flush. cbn [s_bufs]. rewrite flush_bufs_nth. cbn.
  destruct (nth_error (s_bufs s) b) eqn:E; [reflexivity|]. apply nth_error_None in E. lia.
Qed.
Lemma flush_var s i : nth_error (s_vars (flush ar s)) i = match nth_error (s_vars s) i with Some v => Some (clean v) | None => None end.
Proof. unfold flush. cbn [s_vars]. rewrite nth_error_map. now destruct (nth_error _ i). Qed.
Lemma flush_content s G i v l : ok s G -> nth_error (s_vars s) i = Some v -> content ar (flush ar s) v l = content ar s v l.
Proof.
  intros O V. unfold content. destruct (v_kind v) as [x| | |f|b] eqn:K; auto.
  destruct (ok_ev _ _ O i v b V K) as (x & E & _).
  rewrite flush_mem by (apply nth_error_Some; congruence). reflexivity.
Qed.
Lemma clean_same s v l : content ar s (clean v) l = content ar s v l. Proof. reflexivity. Qed.

Lemma flush_ok s G : ok s G -> ok (flush ar s) G.
Proof.
  intros O. constructor.
  - unfold flush. cbn [s_vars]. rewrite map_length. apply (ok_len _ _ O).
  - intros i v g V E. rewrite flush_var in V. destruct (nth_error (s_vars s) i) as [w|] eqn:W; [|discriminate].
    injection V as <-. destruct (ok_var _ _ O i w g W E) as (A & B & M & C). repeat split; cbn; auto; try apply M.
    + now apply C.
    + intros l Hl. rewrite clean_same, (flush_content s G i w l O W). now apply C.
  - intros i v b V K. rewrite flush_var in V. destruct (nth_error (s_vars s) i) as [w|] eqn:W; [|discriminate].
    injection V as <-. cbn in K. destruct (ok_ev _ _ O i w b W K) as (x & X & C).
    unfold flush. cbn [s_bufs]. rewrite flush_bufs_nth, X. eexists. split; [reflexivity|exact C].
  - intros q [].
  - intros i v g b V E P K. rewrite flush_var in V. destruct (nth_error (s_vars s) i) as [w|] eqn:W; [|discriminate].
    injection V as <-. cbn in K. destruct (ok_pad _ _ O i w g b W E P K) as ((x & X & C) & D). split.
    + unfold flush. cbn [s_bufs]. rewrite flush_bufs_nth, X. eexists. split; [reflexivity|exact C].
    + intros j u U KU. rewrite flush_var in U. destruct (nth_error (s_vars s) j) as [z|] eqn:Z; [|discriminate].
      injection U as <-. exact (D j z Z KU).
Qed.
Lemma flush_clean s G i v b : ok s G -> nth_error (s_vars (flush ar s)) i = Some v -> v_kind v = KEval b ->
  forall l, content ar (flush ar s) v l = mem (flush ar s) b l.
Proof.
  intros O V K l. unfold content. rewrite K. reflexivity.
Qed.

(** ** New memory and new variables *)
Lemma mem_malloc s n d b : (b < length (s_bufs s))%nat -> mem (malloc s n d) b = mem s b.
Proof. intros L. unfold mem, malloc. cbn [s_bufs]. now rewrite nth_error_app1. Qed.
Lemma mem_malloc_new s n d : mem (malloc s n d) (length (s_bufs s)) = d.
Proof. unfold mem, malloc. cbn [s_bufs]. rewrite nth_error_app2, Nat.sub_diag; auto. Qed.
Lemma content_bufs s s' G i v l : ok s G -> nth_error (s_vars s) i = Some v -> s_pend s' = s_pend s ->
  (forall b, (b < length (s_bufs s))%nat -> mem s' b = mem s b) -> content ar s' v l = content ar s v l.
Proof.
  intros O V P H. unfold content. destruct (v_kind v) as [x| | |f|b] eqn:K; auto.
  destruct (ok_ev _ _ O i v b V K) as (x & E & _). rewrite P, H; auto. apply nth_error_Some; congruence.
Qed.
(** More memory at the end *)
Definition more (s : st) (l : list buf) : st := {| s_bufs := s_bufs s ++ l; s_vars := s_vars s; s_pend := s_pend s |}.
Lemma mem_more s l b : (b < length (s_bufs s))%nat -> mem (more s l) b = mem s b.
Proof. intros L. unfold mem, more. cbn [s_bufs]. now rewrite nth_error_app1. Qed.
Lemma more_content s l G i v k : ok s G -> nth_error (s_vars s) i = Some v -> content ar (more s l) v k = content ar s v k.
Proof. intros O V. apply (content_bufs s _ G i); auto. intros; now apply mem_more. Qed.
Lemma nth_more {A} (l r : list A) b x : nth_error l b = Some x -> nth_error (l ++ r) b = Some x.
Proof. intros E. rewrite nth_error_app1; auto. apply nth_error_Some. congruence. Qed.
Lemma more_ok s l G : ok s G -> ok (more s l) G.
Proof.
  intros O. constructor.
  - apply (ok_len _ _ O).
  - intros i v g V E. destruct (ok_var _ _ O i v g V E) as (A & B & M & C). repeat split; auto; try apply M.
    + now apply C.
    + intros k Hk. rewrite (more_content s l G i v k O V). now apply C.
  - intros i v b V K. destruct (ok_ev _ _ O i v b V K) as (x & X & C). exists x. split; auto. now apply nth_more.
  - intros q Q. destruct (ok_pend _ _ O q Q) as [A B]. split; auto. unfold more. cbn [s_bufs]. rewrite app_length. lia.
  - intros i v g b V E P K. destruct (ok_pad _ _ O i v g b V E P K) as ((x & X & C) & D). split; [|exact D].
    exists x. split; auto. now apply nth_more.
Qed.
Lemma malloc_more s n d : malloc s n d = more s [{| b_cap := padded n; b_dat := d |}].
Proof. reflexivity. Qed.

Lemma nth_snoc {A} (l : list A) x i y : nth_error (l ++ [x]) i = Some y ->
  nth_error l i = Some y \/ (i = length l /\ y = x).
Proof.
  intros E. destruct (Nat.lt_ge_cases i (length l)) as [L|L].
  - left. now rewrite nth_error_app1 in E.
  - rewrite nth_error_app2 in E by lia. right. destruct (i - length l)%nat as [|n] eqn:D.
    + cbn in E. injection E as <-. split; auto. lia.
    + cbn in E. now destruct n.
Qed.
Lemma nth_snoc2 {A B} (l : list A) (r : list B) x y i u w : length l = length r ->
  nth_error (l ++ [x]) i = Some u -> nth_error (r ++ [y]) i = Some w ->
  (nth_error l i = Some u /\ nth_error r i = Some w) \/ (i = length l /\ u = x /\ w = y).
Proof.
  intros L E F. destruct (nth_snoc l x i u E) as [A1|[A1 A2]], (nth_snoc r y i w F) as [B1|[B1 B2]]; auto.
  - apply nth_error_Some_lt in A1 || (assert (i < length l)%nat by (apply nth_error_Some; congruence); lia).
  - assert (i < length r)%nat by (apply nth_error_Some; congruence). lia.
Qed.

(** A new variable; if it is in memory, no pending scatter concerns this memory, and it does
    not get in the way of others *)
Definition free_at (s : st) (G : list svar) (n : N) (p : bool) (b : nat) : Prop :=
  (exists x, nth_error (s_bufs s) b = Some x /\ n <= b_cap x /\ (p = true -> padded n <= b_cap x)) /\
  (forall q, In q (s_pend s) -> q_buf q <> b) /\
  (forall i v g, nth_error (s_vars s) i = Some v -> nth_error G i = Some g -> v_kind v = KEval b ->
     (g_pad g = true -> n <= v_size v) /\ (p = true -> v_size v <= n)).
Lemma new_ok s G k t n g : ok s G -> made n -> g_ty g = t -> g_size g = n ->
  (g_def g = true -> k <> KUndef /\ forall l, l < n -> content ar s {| v_kind := k; v_ty := t; v_size := n; v_dirty := false |} l = g_val g l) ->
  (forall b, k = KEval b -> free_at s G n (g_pad g) b) ->
  ok (fst (new s k t n false)) (G ++ [g]) /\ snd (new s k t n false) = length G.
Proof.
  intros O M T Z C F. split; [|apply (ok_len _ _ O)]. unfold new. cbn [fst].
  constructor; cbn [s_vars s_bufs s_pend].
  - rewrite !app_length, (ok_len _ _ O). reflexivity.
  - intros i v h V E. destruct (nth_snoc2 _ _ _ _ _ _ _ (ok_len _ _ O) V E) as [[V1 E1]|(-> & -> & ->)].
    + exact (ok_var _ _ O i v h V1 E1).
    + split; [cbn; auto|]. split; [cbn; auto|]. rewrite Z. split; auto.
  - intros i v b V K. destruct (nth_snoc _ _ _ _ V) as [V1|[-> ->]].
    + exact (ok_ev _ _ O i v b V1 K).
    + cbn in K. destruct (F b K) as ((x & X & N1 & _) & _). exists x. auto.
  - intros q Q. destruct (ok_pend _ _ O q Q) as [A B]. split; auto. intros i v V K.
    destruct (nth_snoc _ _ _ _ V) as [V1|[-> ->]]; [exact (B i v V1 K)|].
    cbn in K. destruct (F _ K) as (_ & N1 & _). exfalso. exact (N1 q Q eq_refl).
  - intros i v h b V E P K. destruct (nth_snoc2 _ _ _ _ _ _ _ (ok_len _ _ O) V E) as [[V1 E1]|(-> & -> & ->)].
    + destruct (ok_pad _ _ O i v h b V1 E1 P K) as [A B]. split; auto.
      intros j w W KW. destruct (nth_snoc _ _ _ _ W) as [W1|[-> ->]]; [exact (B j w W1 KW)|].
      cbn in KW |- *. destruct (F b KW) as (_ & _ & N1). exact (proj1 (N1 i v h V1 E1 K) P).
    + cbn in K |- *. destruct (F b K) as ((x & X & _ & N1) & _ & N2). split; [exists x; auto|].
      intros j w W KW. destruct (nth_snoc _ _ _ _ W) as [W1|[-> ->]]; [|cbn; lia].
      destruct (spec_of s G j w O W1) as (h' & H' & _). exact (proj2 (N2 j w h' W1 H' KW) P).
Qed.
(** Memory nobody uses *)
Lemma end_free s G n d : ok s G -> free_at (malloc s n d) G n true (length (s_bufs s)).
Proof.
  intros O. split; [|split].
  - eexists. unfold malloc. cbn [s_bufs]. rewrite nth_error_app2, Nat.sub_diag by auto. split; [reflexivity|].
    cbn. split; [unfold padded; lia|lia].
  - intros q Q. destruct (ok_pend _ _ O q Q). lia.
  - intros i v g V E K. destruct (ok_ev _ _ O i v _ V K) as (x & X & _).
    assert (length (s_bufs s) < length (s_bufs s))%nat by (apply nth_error_Some; congruence). lia.
Qed.
Lemma end_none s G : ok s G -> forall q, In q (s_pend s) -> q_buf q <> length (s_bufs s).
Proof. intros O q Q. destruct (ok_pend _ _ O q Q). lia. Qed.
Lemma fresh_ok s G t n d f : ok s G -> made n -> (forall l, l < n -> d l = f l) ->
  ok (fst (fresh s t n d)) (G ++ [arr t n f true true]) /\ snd (fresh s t n d) = length G.
Proof.
  intros O M E. unfold fresh. apply new_ok; auto.
  - rewrite malloc_more. now apply more_ok.
  - intros _. split; [discriminate|]. intros l Hl. unfold content. cbn [v_kind].
    change (s_pend (malloc s n d)) with (s_pend s).
    rewrite settle_none by (now apply (end_none s G)). rewrite mem_malloc_new. cbn. auto.
  - intros b [= <-]. now apply end_free.
Qed.

(** ** A variable gets memory of its own *)
Definition moved (s : st) (v : var) (i : nat) (n : N) (d : N -> Z) : st :=
  set_var (malloc s n d) i (with_kind v (KEval (length (s_bufs s)))).
Lemma moved_nth s v i n d j w : nth_error (s_vars (moved s v i n d)) j = Some w ->
  (i <> j /\ nth_error (s_vars s) j = Some w) \/ (i = j /\ w = with_kind v (KEval (length (s_bufs s)))).
Proof.
  unfold moved, set_var. cbn [s_vars malloc]. intros E. destruct (Nat.eq_dec i j) as [->|N].
  - right. split; auto. destruct (Nat.lt_ge_cases j (length (s_vars s))) as [L|L].
    + rewrite nth_error_set_nth_eq in E; congruence.
    + rewrite set_nth_oob in E by auto. apply nth_error_None in L. congruence.
  - left. rewrite nth_error_set_nth_neq in E; auto.
Qed.
Lemma moved_same s v i n d : nth_error (s_vars s) i = Some v ->
  nth_error (s_vars (moved s v i n d)) i = Some (with_kind v (KEval (length (s_bufs s)))).
Proof.
  intros V. unfold moved, set_var. cbn [s_vars malloc]. apply nth_error_set_nth_eq. apply nth_error_Some. congruence.
Qed.
Lemma moved_mem s v i n d : mem (moved s v i n d) (length (s_bufs s)) = d.
Proof. unfold moved. change (mem (set_var ?s ?i ?v)) with (mem s). apply mem_malloc_new. Qed.
Lemma moved_ok s G i v g d : ok s G -> nth_error (s_vars s) i = Some v -> nth_error G i = Some g ->
  (g_def g = true -> forall l, l < g_size g -> d l = g_val g l) ->
  ok (moved s v i (v_size v) d) G.
Proof.
  intros O V E D.
  assert (SM : forall b, (b < length (s_bufs s))%nat -> mem (moved s v i (v_size v) d) b = mem s b)
    by (intros b L; exact (mem_malloc s (v_size v) d b L)).
  constructor.
  - unfold moved, set_var. cbn [s_vars malloc]. rewrite set_nth_length. apply (ok_len _ _ O).
  - intros j w h W H. destruct (moved_nth _ _ _ _ _ _ _ W) as [[N W1]|[<- ->]].
    + destruct (ok_var _ _ O j w h W1 H) as (A & B & M & C). repeat split; auto; try apply M.
      * now apply C.
      * intros l Hl. rewrite (content_bufs s _ G j); auto. now apply C.
    + destruct (ok_var _ _ O i v h V H) as (A & B & M & C). repeat split; auto; try apply M; try (cbn; discriminate).
      intros l Hl. unfold content. cbn [v_kind with_kind]. change (s_pend (moved s v i (v_size v) d)) with (s_pend s).
      rewrite settle_none by (now apply (end_none s G)). rewrite moved_mem. replace h with g by congruence. apply D; [|congruence].
      replace g with h by congruence. auto.
  - intros j w b W K. destruct (moved_nth _ _ _ _ _ _ _ W) as [[N W1]|[<- ->]].
    + destruct (ok_ev _ _ O j w b W1 K) as (x & X & C). exists x. split; auto. now apply nth_more.
    + cbn in K. injection K as <-. unfold moved, set_var. cbn [s_bufs malloc].
      rewrite nth_error_app2, Nat.sub_diag by auto. eexists. split; [reflexivity|]. cbn. unfold padded. lia.
  - intros q Q. destruct (ok_pend _ _ O q Q) as [A B]. split.
    + unfold moved, set_var. cbn [s_bufs malloc]. rewrite app_length. lia.
    + intros j w W K. destruct (moved_nth _ _ _ _ _ _ _ W) as [[N W1]|[<- ->]]; [exact (B j w W1 K)|].
      cbn in K. injection K as K. lia.
  - intros j w h b W H P K. destruct (moved_nth _ _ _ _ _ _ _ W) as [[N W1]|[<- ->]].
    + destruct (ok_pad _ _ O j w h b W1 H P K) as ((x & X & C) & C2). split.
      * exists x. split; auto. now apply nth_more.
      * intros k u U KU. destruct (moved_nth _ _ _ _ _ _ _ U) as [[N2 U1]|[<- ->]]; [exact (C2 k u U1 KU)|].
        cbn in KU. injection KU as <-. assert (length (s_bufs s) < length (s_bufs s))%nat by (apply nth_error_Some; congruence). lia.
    + cbn in K. injection K as <-. split.
      * unfold moved, set_var. cbn [s_bufs malloc].
        rewrite nth_error_app2, Nat.sub_diag by auto. eexists. split; [reflexivity|]. cbn. lia.
      * intros k u U KU. destruct (moved_nth _ _ _ _ _ _ _ U) as [[N2 U1]|[<- ->]]; [|cbn; lia].
        destruct (ok_ev _ _ O k u _ U1 KU) as (x & X & _).
        assert (length (s_bufs s) < length (s_bufs s))%nat by (apply nth_error_Some; congruence). lia.
Qed.

(** ** Evaluation *)
Lemma var_eval_ok s G i g : ok s G -> nth_error G i = Some g ->
  ok (var_eval ar s i) G /\
  exists v, nth_error (s_vars (var_eval ar s i)) i = Some v /\ fits (var_eval ar s i) v g /\ v_dirty v = false /\
    (g_def g = true -> (forall b, v_kind v = KEval b -> forall l, l < g_size g -> mem (var_eval ar s i) b l = g_val g l)).
Proof.
  intros O E. destruct (var_of s G i g O E) as (v & V & F).
  assert (ST : ok (flush ar s) G /\
    exists v0, nth_error (s_vars (flush ar s)) i = Some v0 /\ fits (flush ar s) v0 g /\ v_dirty v0 = false /\
      (g_def g = true -> (forall b, v_kind v0 = KEval b -> forall l, l < g_size g -> mem (flush ar s) b l = g_val g l))).
  { pose proof (flush_ok s G O) as O1. split; auto. destruct (var_of _ _ i g O1 E) as (w & W & FW). exists w.
    split; auto. split; auto. rewrite flush_var, V in W. injection W as <-. split; [reflexivity|].
    intros D b K l Hl. rewrite <- (flush_clean s G i (clean v) b O) by (auto; now rewrite flush_var, V).
    now apply FW. }
  assert (MV : ok (moved (flush ar s) v i (v_size v) (content ar (flush ar s) v)) G /\
    exists v0, nth_error (s_vars (moved (flush ar s) v i (v_size v) (content ar (flush ar s) v))) i = Some v0 /\
      fits (moved (flush ar s) v i (v_size v) (content ar (flush ar s) v)) v0 g /\ v_dirty v0 = false /\
      (g_def g = true -> (forall b, v_kind v0 = KEval b -> forall l, l < g_size g ->
         mem (moved (flush ar s) v i (v_size v) (content ar (flush ar s) v)) b l = g_val g l))).
  { destruct ST as [O1 (v0 & V0 & F0 & _)].
    assert (CV : g_def g = true -> forall l, l < g_size g -> content ar (flush ar s) v l = g_val g l).
    { intros D l Hl. rewrite (flush_content s G i v l O V). now apply F. }
    assert (V0' : v0 = clean v) by (rewrite flush_var, V in V0; congruence). subst v0.
    assert (O2 : ok (moved (flush ar s) (clean v) i (v_size (clean v)) (content ar (flush ar s) v)) G)
      by (apply (moved_ok _ G i (clean v) g); auto).
    change (moved (flush ar s) (clean v) i (v_size (clean v)) (content ar (flush ar s) v))
      with (moved (flush ar s) v i (v_size v) (content ar (flush ar s) v)) in O2.
    split; [exact O2|]. destruct (var_of _ _ i g O2 E) as (w & W & FW). exists w. split; auto. split; auto.
    destruct (moved_nth _ _ _ _ _ _ _ W) as [[N _]|[_ ->]]; [congruence|]. split; [reflexivity|].
    intros D b K l Hl. cbn in K. injection K as <-. rewrite moved_mem. now apply CV. }
  unfold var_eval. rewrite V. destruct (v_kind v) as [x| | |f|b] eqn:K; try exact MV.
  all: destruct (v_dirty v) eqn:Dv; [exact ST|].
  all: split; [exact O|]; exists v; split; [exact V|]; split; [exact F|]; split; [exact Dv|].
  all: intros D b0 K0 l Hl; try congruence.
  rewrite <- (clean_content s G i v b0 l O V) by congruence. now apply F.
Qed.
(** What evaluation does to the kind of a variable *)
Lemma var_eval_kind s i v : nth_error (s_vars s) i = Some v ->
  exists w, nth_error (s_vars (var_eval ar s i)) i = Some w /\ v_size w = v_size v /\ v_ty w = v_ty v /\
    match v_kind v with
    | KNode _ | KMask => exists b, v_kind w = KEval b
    | k => v_kind w = k
    end.
Proof.
  intros V. unfold var_eval. rewrite V. destruct (v_kind v) as [x| | |f|b] eqn:K.
  1, 2, 5: destruct (v_dirty v); [exists (clean v); rewrite flush_var, V; auto|exists v; auto].
  all: eexists; split; [apply nth_error_set_nth_eq; cbn [s_vars malloc]; apply nth_error_Some; change (nth_error (s_vars (flush ar s)) i <> None);
       rewrite flush_var, V; discriminate|]; split; [reflexivity|]; split; [reflexivity|]; cbn; eauto.
Qed.
Lemma var_eval_other s i j v : nth_error (s_vars s) j = Some v -> i <> j ->
  exists w, nth_error (s_vars (var_eval ar s i)) j = Some w /\ v_kind w = v_kind v /\ v_size w = v_size v /\ v_ty w = v_ty v /\
    (v_dirty v = false -> v_dirty w = false).
Proof.
  intros V N. unfold var_eval. destruct (nth_error (s_vars s) i) as [u|]; [|exists v; auto].
  assert (FL : exists w, nth_error (s_vars (flush ar s)) j = Some w /\ v_kind w = v_kind v /\ v_size w = v_size v /\ v_ty w = v_ty v /\
    (v_dirty v = false -> v_dirty w = false))
    by (exists (clean v); rewrite flush_var, V; auto).
  destruct (v_kind u); try (destruct (v_dirty u); [exact FL|exists v; repeat split; auto]).
  all: destruct FL as (w & W & R); exists w; split; auto; unfold set_var; cbn [s_vars malloc]; rewrite nth_error_set_nth_neq; auto.
Qed.
(** A defined variable that is not a literal is in memory after it is evaluated *)
Lemma eval_data s G i g v : ok s G -> nth_error G i = Some g -> g_def g = true -> nth_error (s_vars s) i = Some v ->
  (forall x, v_kind v <> KLit x) ->
  exists w b x, nth_error (s_vars (var_eval ar s i)) i = Some w /\ v_kind w = KEval b /\ v_size w = g_size g /\ v_ty w = g_ty g /\
    v_dirty w = false /\ nth_error (s_bufs (var_eval ar s i)) b = Some x /\ g_size g <= b_cap x /\
    forall l, l < g_size g -> mem (var_eval ar s i) b l = g_val g l.
Proof.
  intros O E D V NL. destruct (var_eval_ok s G i g O E) as (O1 & w & W & F & CL & M).
  destruct (var_eval_kind s i v V) as (w' & W' & _ & _ & K). assert (w' = w) by congruence. subst w'.
  destruct (ok_var _ _ O i v g V E) as (_ & _ & _ & FV). destruct (FV D) as [NU _].
  assert (KE : exists b, v_kind w = KEval b).
  { destruct (v_kind v); try congruence; eauto. }
  destruct KE as [b KE]. destruct (ok_ev _ _ O1 i w b W KE) as (x & X & C).
  destruct F as (A & B & _). exists w, b, x. rewrite <- B, <- A. repeat split; auto.
  rewrite B. now apply M.
Qed.
End Inv.
