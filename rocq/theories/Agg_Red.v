(** Reductions. *)
From Verif Require Import Base Agg_Model Agg_Spec Agg_Inv Agg_Masks Agg_Query.
Local Open Scope N_scope.

(** ** Ranges *)
Lemma between_empty a b : b <= a -> between a b = [].
Proof. intros H. unfold between. replace (b - a) with 0 by lia. reflexivity. Qed.
Lemma upto_split a n : upto (a + n) = upto a ++ map (fun k => a + k) (upto n).
Proof.
  induction n as [|n IH] using N.peano_ind; [now rewrite N.add_0_r, app_nil_r|].
  replace (a + N.succ n) with (a + n + 1) by lia. replace (N.succ n) with (n + 1) by lia.
  rewrite !upto_S, map_app, IH, <- app_assoc. reflexivity.
Qed.
Lemma upto_between a b : a <= b -> upto b = upto a ++ between a b.
Proof. intros H. unfold between. rewrite <- upto_split. f_equal. lia. Qed.
Lemma between_upto n : between 0 n = upto n.
Proof. unfold between. rewrite N.sub_0_r. rewrite <- map_id. apply map_ext. intros; lia. Qed.
Lemma in_between a b l : In l (between a b) <-> a <= l < b.
Proof.
  unfold between. rewrite in_map_iff. split.
  - intros (k & <- & K). apply in_upto in K. lia.
  - intros H. exists (l - a). split; [lia|]. apply in_upto. lia.
Qed.
Lemma between_length a b : length (between a b) = N.to_nat (b - a).
Proof. unfold between. now rewrite map_length, upto_length. Qed.
Lemma between_app a b c : a <= b -> b <= c -> between a c = between a b ++ between b c.
Proof.
  intros H1 H2. unfold between. replace (c - a) with ((b - a) + (c - b)) by lia.
  rewrite upto_split, map_app, map_map. f_equal. apply map_ext. intros; lia.
Qed.
Lemma filter_range a c n : a <= c -> filter (fun l => (a <=? l) && (l <? c)) (upto n) = between a (N.min c n).
Proof.
  intros AC. destruct (N.le_gt_cases a n) as [A|A].
  - rewrite (upto_between a n) by auto. rewrite (between_app a (N.min c n) n) by lia. rewrite !filter_app.
    rewrite filter_none, filter_all, filter_none; [now rewrite app_nil_r|..].
    + intros l L. apply in_between in L. apply andb_false_iff. right. apply N.ltb_ge. lia.
    + intros l L. apply in_between in L. apply andb_true_iff. split; [apply N.leb_le|apply N.ltb_lt]; lia.
    + intros l L. apply in_upto in L. apply andb_false_iff. left. apply N.leb_gt. lia.
  - rewrite between_empty by lia. apply filter_none. intros l L. apply in_upto in L.
    apply andb_false_iff. left. apply N.leb_gt. lia.
Qed.
(** Blocks make up the whole range *)
Lemma blocks_concat bs size m : 0 < bs -> concat (map (block size bs) (upto m)) = upto (N.min (m * bs) size).
Proof.
  intros B. induction m as [|m IH] using N.peano_ind; [now rewrite N.mul_0_l, N.min_0_l|].
  replace (N.succ m) with (m + 1) by lia. rewrite upto_S, map_app, concat_app, IH. cbn [map concat]. rewrite app_nil_r.
  unfold block. destruct (N.le_gt_cases (m * bs) size) as [L|L].
  - replace (N.min (m * bs) size) with (m * bs) by lia. rewrite <- upto_between; auto.
    apply N.min_glb; auto. rewrite N.mul_add_distr_r. lia.
  - rewrite between_empty by lia. rewrite app_nil_r. f_equal. rewrite !N.mul_add_distr_r. lia.
Qed.
Lemma map_const {A} (f : A -> Z) x l : (forall a, In a l -> f a = x) -> map f l = repeat x (length l).
Proof. induction l as [|a l IH]; intros H; cbn; auto. rewrite H by now left. f_equal. apply IH. intros; apply H; now right. Qed.

Section Red.
Variable ar : arith.
Notation ok := (ok ar).
Notation total := (total ar).

Section Laws.
Variables (o : rop) (t : ty).
Hypothesis L : laws ar o t.
Lemma idn_r x : red ar o t x (idn ar o t) = x.
Proof. now rewrite (l_comm _ _ _ L), (l_idn _ _ _ L). Qed.
Lemma total_app l r : total o t (l ++ r) = red ar o t (total o t l) (total o t r).
Proof.
  induction l as [|x l IH]; cbn; [now rewrite (l_idn _ _ _ L)|].
  fold (total o t (l ++ r)). rewrite IH. apply (l_assoc _ _ _ L).
Qed.
Lemma fold_total {A} (d : A -> Z) l : forall a, fold_left (fun r k => red ar o t r (d k)) l a = red ar o t a (total o t (map d l)).
Proof.
  induction l as [|x l IH]; intros a; cbn; [now rewrite idn_r|].
  rewrite IH. now rewrite <- (l_assoc _ _ _ L).
Qed.
Lemma reduce_block_total d l : reduce_block ar o t d l = total o t (map d l).
Proof.
  unfold reduce_block. destruct l as [|x [|y l]].
  - reflexivity.
  - cbn. now rewrite idn_r.
  - rewrite fold_total. apply (l_idn _ _ _ L).
Qed.
Lemma total_concat ls : total o t (concat ls) = total o t (map (total o t) ls).
Proof. induction ls as [|l ls IH]; [reflexivity|]. cbn [concat map]. rewrite total_app, IH. reflexivity. Qed.
(** Scatters of a reduction *)
Lemma scatter_total q ls : q_op q = Some o -> q_ty q = t -> forall d j,
  fold_left (lane ar q) ls d j = red ar o t (d j) (total o t (map (q_val q) (filter (fun l => q_idx q l =? j) ls))).
Proof.
  intros Q T. induction ls as [|l ls IH]; intros d j; cbn; [now rewrite idn_r|].
  rewrite IH. unfold lane at 1, put. rewrite Q, T. rewrite (N.eqb_sym j). destruct (N.eqb_spec (q_idx q l) j) as [->|N]; auto.
  cbn. now rewrite <- (l_assoc _ _ _ L).
Qed.
End Laws.

(** ** Blocks of an array *)
Lemma part_block g bs j : part g bs j = map (g_val g) (block (g_size g) bs j).
Proof.
  unfold part, block. rewrite filter_range by lia. do 2 f_equal. f_equal. lia.
Qed.
Lemma block_in size bs j l : In l (block size bs j) -> l < size.
Proof. unfold block. intros H. apply in_between in H. lia. Qed.
Lemma reduced_pos size bs : 0 < size -> 0 < bs -> 0 < (size + bs - 1) / bs.
Proof. intros A B. assert (H : (size + bs - 1) / bs <> 0) by (intros Z; apply N.div_small_iff in Z; lia). lia. Qed.
Lemma reduced_bounds size bs : 0 < size -> 0 < bs ->
  ((size + bs - 1) / bs - 1) * bs < size /\ size <= (size + bs - 1) / bs * bs /\ (size + bs - 1) / bs <= size.
Proof.
  intros A B. pose proof (reduced_pos size bs A B) as P.
  pose proof (N.div_mod (size + bs - 1) bs ltac:(lia)) as D. pose proof (N.mod_lt (size + bs - 1) bs ltac:(lia)) as M.
  set (r := (size + bs - 1) / bs) in *. rewrite N.mul_comm in D. rewrite N.mul_sub_distr_r.
  assert (1 * bs <= r * bs) by (apply N.mul_le_mono_r; lia).
  assert (H0 : (r - 1) * 1 <= (r - 1) * bs) by (apply N.mul_le_mono_l; lia). rewrite (N.mul_sub_distr_r r 1 bs) in H0.
  generalize dependent ((size + bs - 1) mod bs). intros. lia.
Qed.

Lemma reduce_ok s G i g o : ok s G -> nth_error G i = Some g -> g_def g = true -> laws ar o (g_ty g) ->
  exists s', var_reduce ar o s i = Ok s' (RVar (length G)) /\
    ok s' (G ++ [scalar (g_ty g) (total o (g_ty g) (values g))]).
Proof.
  intros O E D LW. destruct (var_of ar s G i g O E) as (v & V & (FT & FS & MD & FC)). destruct (FC D) as [NU C].
  unfold made in MD. unfold var_reduce. rewrite V.
  assert (EV : (forall x, v_kind v <> KLit x) ->
    exists s',
      match nth_error (s_vars (var_eval ar s i)) i with
      | None => UB
      | Some v => match data v with
        | None => UB
        | Some b => ret (fresh (var_eval ar s i) (v_ty v) 1 (fun _ => reduce_block ar o (v_ty v) (mem (var_eval ar s i) b) (upto (v_size v))))
        end
      end = Ok s' (RVar (length G)) /\ ok s' (G ++ [scalar (g_ty g) (total o (g_ty g) (values g))])).
  { intros NL. destruct (eval_data ar s G i g v O E D V NL) as (w & b & x & W & K & WS & WT & CL & X & CAP & M).
    rewrite W. unfold data. rewrite K, WS, WT. destruct (var_eval_ok ar s G i g O E) as (O1 & _).
    destruct (fresh_ok ar (var_eval ar s i) G (g_ty g) 1 (fun _ => reduce_block ar o (g_ty g) (mem (var_eval ar s i) b) (upto (g_size g)))
      (fun _ => total o (g_ty g) (values g)) O1) as [A B].
    - unfold made; lia.
    - intros l _. rewrite reduce_block_total by auto. f_equal. unfold values. apply map_ext_in. intros k Hk. apply in_upto in Hk. now apply M.
    - eexists. unfold ret. rewrite B. split; [reflexivity|exact A]. }
  unfold content in C. destruct (v_kind v) as [x| | |f|b] eqn:K; try (apply EV; congruence); try congruence.
  assert (VX : values g = repeat x (N.to_nat (g_size g))).
  { unfold values. rewrite (map_const (g_val g) x), upto_length; auto. intros l Hl. apply in_upto in Hl. symmetry. now apply C. }
  rewrite FT, FS.
  destruct (new_ok ar s G (KLit (if 1 <? g_size g then rep ar o (g_ty g) (g_size g) x else x)) (g_ty g) 1
    (scalar (g_ty g) (total o (g_ty g) (values g))) O) as [A B]; auto; try (unfold made; cbn; lia); try discriminate.
  - intros _. split; [discriminate|]. intros l _. cbn [content v_kind scalar g_val]. rewrite VX.
    destruct (N.ltb_spec 1 (g_size g)) as [S1|S1].
    + apply (l_rep _ _ _ LW). lia.
    + replace (g_size g) with 1 by lia. change (N.to_nat 1) with 1%nat. symmetry. exact (idn_r o _ LW x).
  - eexists. unfold ret. rewrite B. split; [reflexivity|exact A].
Qed.

(** ** Block reductions *)
Definition waiting (s : st) (q : pend) (t : ty) (n : N) (b : nat) : st * nat :=
  new {| s_bufs := s_bufs s; s_vars := s_vars s; s_pend := s_pend s ++ [q] |} (KEval b) t n true.
Lemma settle_app p q b d : settle ar (p ++ [q]) b d =
  if Nat.eqb (q_buf q) b then apply ar q (settle ar p b d) else settle ar p b d.
Proof. unfold settle. now rewrite fold_left_app. Qed.
Lemma waiting_ok s G q t n f c : ok s G -> made n -> q_buf q = length (s_bufs s) ->
  (forall j, j < n -> apply ar q (fun _ => c) j = f j) ->
  ok (fst (waiting (malloc s n (fun _ => c)) q t n (length (s_bufs s)))) (G ++ [arr t n f true true]) /\
  snd (waiting (malloc s n (fun _ => c)) q t n (length (s_bufs s))) = length G.
Proof.
  intros O M Q A. split; [|apply (ok_len _ _ _ O)].
  assert (OLD : forall i v k, nth_error (s_vars s) i = Some v ->
    content ar (fst (waiting (malloc s n (fun _ => c)) q t n (length (s_bufs s)))) v k = content ar s v k).
  { intros i v k V. unfold content. destruct (v_kind v) as [x| | |g|b] eqn:K; auto.
    destruct (ok_ev _ _ _ O i v b V K) as (x & X & _). assert (b < length (s_bufs s))%nat by (apply nth_error_Some; congruence).
    assert (ME : mem (fst (waiting (malloc s n (fun _ => c)) q t n (length (s_bufs s)))) b = mem s b) by (now apply (mem_malloc s n (fun _ => c) b)).
    rewrite ME. change (s_pend (fst (waiting (malloc s n (fun _ => c)) q t n (length (s_bufs s))))) with (s_pend s ++ [q]).
    rewrite settle_app, Q. replace (Nat.eqb (length (s_bufs s)) b) with false by (symmetry; apply Nat.eqb_neq; lia). reflexivity. }
  assert (NB : forall i v, nth_error (s_vars s) i = Some v -> v_kind v <> KEval (length (s_bufs s))).
  { intros i v V K. destruct (ok_ev _ _ _ O i v _ V K) as (x & X & _).
    assert (length (s_bufs s) < length (s_bufs s))%nat by (apply nth_error_Some; congruence). lia. }
  assert (NX : nth_error (s_bufs s ++ [{| b_cap := padded n; b_dat := fun _ => c |}]) (length (s_bufs s)) =
    Some {| b_cap := padded n; b_dat := fun _ => c |}) by (rewrite nth_error_app2, Nat.sub_diag; auto).
  constructor.
  - cbn. rewrite !app_length, (ok_len _ _ _ O). reflexivity.
  - intros i v h V E. destruct (nth_snoc2 _ _ _ _ _ _ _ (ok_len _ _ _ O) V E) as [[V1 E1]|(-> & -> & ->)].
    + destruct (ok_var _ _ _ O i v h V1 E1) as (B1 & B2 & B3 & C). repeat split; auto; try apply B3.
      * now apply C.
      * intros k Hk. rewrite (OLD i v k V1). now apply C.
    + split; [reflexivity|]. split; [reflexivity|]. split; [exact M|]. intros _. split; [discriminate|].
      intros k Hk. unfold content. cbn [v_kind waiting new fst s_pend]. rewrite settle_app, Q, Nat.eqb_refl.
      change (s_pend (malloc s n (fun _ => c))) with (s_pend s).
      rewrite settle_none by (now apply (end_none ar s G)).
      match goal with |- apply _ _ ?m _ = _ => change m with (mem (malloc s n (fun _ => c)) (length (s_bufs s))) end.
      rewrite mem_malloc_new. now apply A.
  - intros i v b V K. destruct (nth_snoc _ _ _ _ V) as [V1|[-> ->]].
    + destruct (ok_ev _ _ _ O i v b V1 K) as (x & X & C). exists x. split; auto. now apply nth_more.
    + cbn in K. injection K as <-. eexists. split; [exact NX|]. cbn. unfold padded. lia.
  - intros q' Q'. cbn [waiting new fst s_pend s_vars s_bufs malloc] in *. apply in_app_or in Q'. destruct Q' as [Q'|[<-|[]]].
    + destruct (ok_pend _ _ _ O q' Q') as [B1 B2]. split; [rewrite app_length; lia|].
      intros i v V K. destruct (nth_snoc _ _ _ _ V) as [V1|[-> ->]]; [exact (B2 i v V1 K)|]. reflexivity.
    + split; [rewrite app_length, Q; cbn; lia|]. intros i v V K. rewrite Q in K.
      destruct (nth_snoc _ _ _ _ V) as [V1|[-> ->]]; [exfalso; exact (NB i v V1 K)|]. reflexivity.
  - intros i v h b V E P K. destruct (nth_snoc2 _ _ _ _ _ _ _ (ok_len _ _ _ O) V E) as [[V1 E1]|(-> & -> & ->)].
    + destruct (ok_pad _ _ _ O i v h b V1 E1 P K) as ((x & X & C) & C2). split; [exists x; split; auto; now apply nth_more|].
      intros j w W KW. destruct (nth_snoc _ _ _ _ W) as [W1|[-> ->]]; [exact (C2 j w W1 KW)|].
      cbn in KW. injection KW as <-. exfalso. exact (NB i v V1 K).
    + cbn in K. injection K as <-. split; [eexists; split; [exact NX|cbn; lia]|].
      intros j w W KW. destruct (nth_snoc _ _ _ _ W) as [W1|[-> ->]]; [exfalso; exact (NB j w W1 KW)|cbn; lia].
Qed.

Lemma block_reduce_ok s G i g o bs m : ok s G -> nth_error G i = Some g -> legal1 ar 0 s i (CBlockReduce o i bs m) g ->
  agrees ar G (CBlockReduce o i bs m) (var_block_reduce ar o s i bs m).
Proof.
  intros O E (D & LG). destruct (var_of ar s G i g O E) as (v & V & (FT & FS & MD & FC)). destruct (FC D) as [NU C].
  unfold var_block_reduce. rewrite V.
  destruct (N.eqb_spec bs 0) as [B0|B0]; [apply agrees_same; auto; cbn [spec operand]; rewrite E; cbn [spec1]; now rewrite B0|].
  destruct (N.eqb_spec bs 1) as [B1|B1]; [apply agrees_same; auto; cbn [spec operand]; rewrite E; cbn [spec1]; now rewrite B1|].
  assert (SP : spec ar G (CBlockReduce o i bs m) =
    add G (arr (g_ty g) ((g_size g + bs - 1) / bs) (fun j => total o (g_ty g) (part g bs j)) true true)).
  { cbn [spec operand]. rewrite E. cbn [spec1]. now rewrite (proj2 (N.eqb_neq _ _) B0), (proj2 (N.eqb_neq _ _) B1). }
  destruct (LG ltac:(lia)) as (BS & SZ & LW & CN). unfold made in MD.
  rewrite FT, FS. set (size := g_size g) in *.
  assert (RD : u32 (size + bs - 1) / bs = (size + bs - 1) / bs) by (unfold u32; now rewrite N.mod_small by lia).
  rewrite RD. pose proof (reduced_pos size bs ltac:(lia) ltac:(lia)) as RP.
  destruct (reduced_bounds size bs ltac:(lia) ltac:(lia)) as (R1 & R2 & R3).
  set (r := (size + bs - 1) / bs) in *.
  assert (MR : made r) by (unfold made; lia).
  assert (EV : (forall x, v_kind v <> KLit x) ->
    agrees ar G (CBlockReduce o i bs m)
      (match nth_error (s_vars (var_eval ar s i)) i with
       | None => UB
       | Some v => match data v with
         | None => UB
         | Some b => if size <? bs then Ok (var_eval ar s i) RErr else
             ret (fresh (var_eval ar s i) (g_ty g) r (fun j => reduce_block ar o (g_ty g) (mem (var_eval ar s i) b) (block size bs j)))
         end
       end)).
  { intros NL. destruct (eval_data ar s G i g v O E D V NL) as (w & b & x & W & K & WS & WT & CL & X & CAP & M).
    rewrite W. unfold data. rewrite K. destruct (var_eval_ok ar s G i g O E) as (O1 & _).
    replace (size <? bs) with false by (symmetry; apply N.ltb_ge; lia).
    eapply agrees_ret; [|exact SP]. apply fresh_ok; auto. intros j Hj. rewrite reduce_block_total by auto. f_equal.
    rewrite part_block. apply map_ext_in. intros l Hl. apply block_in in Hl. now apply M. }
  assert (SC : (forall x, v_kind v <> KLit x) -> forall s0, ok s0 G -> (forall l, l < size -> content ar s0 v l = g_val g l) ->
    (forall b, v_kind v = KEval b -> (b < length (s_bufs s0))%nat) ->
    agrees ar G (CBlockReduce o i bs m)
      (ret (new {| s_bufs := s_bufs (malloc s0 r (fun _ => idn ar o (g_ty g))); s_vars := s_vars (malloc s0 r (fun _ => idn ar o (g_ty g)));
                   s_pend := s_pend (malloc s0 r (fun _ => idn ar o (g_ty g))) ++
                     [{| q_buf := length (s_bufs s0); q_n := size; q_idx := fun l => l / bs;
                         q_val := content ar (malloc s0 r (fun _ => idn ar o (g_ty g))) v; q_op := Some o; q_ty := g_ty g |}] |}
                (KEval (length (s_bufs s0))) (g_ty g) r true))).
  { intros NL s0 O0 C0 K0. eapply agrees_ret; [|exact SP]. apply waiting_ok; auto.
    intros j Hj. unfold apply. cbn [q_n]. rewrite (scatter_total o (g_ty g) LW) by reflexivity. rewrite (l_idn _ _ _ LW).
    f_equal. cbn [q_val q_idx]. unfold part.
    rewrite (filter_ext (fun l => l / bs =? j) (fun l => (j * bs <=? l) && (l <? j * bs + bs))).
    - apply map_ext_in. intros l Hl. apply filter_In in Hl. destruct Hl as [Hl _]. apply in_upto in Hl.
      rewrite <- C0 by auto. unfold content. destruct (v_kind v) as [x| | |f|b] eqn:K; auto.
      change (s_pend (malloc s0 r (fun _ => idn ar o (g_ty g)))) with (s_pend s0). rewrite mem_malloc; auto.
    - intros l. apply eq_true_iff_eq. rewrite N.eqb_eq, andb_true_iff, N.leb_le, N.ltb_lt.
      pose proof (N.div_mod l bs ltac:(lia)) as DM. pose proof (N.mod_lt l bs ltac:(lia)) as ML. split.
      + intros <-. rewrite (N.mul_comm (l / bs)). lia.
      + intros [H1 H2]. symmetry. apply (N.div_unique l bs j (l - j * bs)); [lia|]. rewrite (N.mul_comm bs). lia. }
  assert (FL : (forall x, v_kind v <> KLit x) ->
    (let s0 := if v_dirty v then flush ar s else s in
     ok s0 G /\ (forall l, l < size -> content ar s0 v l = g_val g l) /\ (forall b, v_kind v = KEval b -> (b < length (s_bufs s0))%nat))).
  { intros NL. cbv zeta.
    assert (KB : forall b, v_kind v = KEval b -> (b < length (s_bufs s))%nat).
    { intros b K. destruct (ok_ev _ _ _ O i v b V K) as (x & X & _). apply nth_error_Some. congruence. }
    destruct (v_dirty v).
    - split; [now apply flush_ok|]. split.
      + intros l Hl. rewrite (flush_content ar s G i v l O V). now apply C.
      + intros b K. unfold flush. cbn [s_bufs]. rewrite flush_bufs_length. auto.
    - auto. }
  assert (WH : (forall x, v_kind v <> KLit x) -> forall sy : bool, (sy = true -> can ar o (g_ty g) = true) ->
    agrees ar G (CBlockReduce o i bs m)
     (if sy then
        if negb (can ar o (g_ty g)) || (r =? 0) then Ok s RErr else
        let s := if v_dirty v then flush ar s else s in
        let b := length (s_bufs s) in
        let s := malloc s r (fun _ => idn ar o (g_ty g)) in
        let q := {| q_buf := b; q_n := size; q_idx := fun l => l / bs; q_val := content ar s v; q_op := Some o; q_ty := g_ty g |} in
        ret (new {| s_bufs := s_bufs s; s_vars := s_vars s; s_pend := s_pend s ++ [q] |} (KEval b) (g_ty g) r true)
      else
        match nth_error (s_vars (var_eval ar s i)) i with
        | None => UB
        | Some v => match data v with
          | None => UB
          | Some b => if size <? bs then Ok (var_eval ar s i) RErr else
              ret (fresh (var_eval ar s i) (g_ty g) r (fun j => reduce_block ar o (g_ty g) (mem (var_eval ar s i) b) (block size bs j)))
          end
        end)).
  { intros NL sy CS. destruct sy; [|now apply EV]. rewrite (CS eq_refl). cbn [negb orb].
    replace (r =? 0) with false by (symmetry; apply N.eqb_neq; lia). cbv zeta.
    destruct (FL NL) as (F1 & F2 & F3). now apply SC. }
  assert (CAN : m <> Symbolic -> forall c0 : bool, match m with Auto => if negb (can ar o (g_ty g)) then false else c0 | Symbolic => true | Evaluated => false end = true -> can ar o (g_ty g) = true).
  { intros NS c0. destruct m; try congruence; try discriminate. now destruct (can ar o (g_ty g)). }
  assert (CAN2 : forall c0 : bool, match m with Auto => if negb (can ar o (g_ty g)) then false else c0 | Symbolic => true | Evaluated => false end = true -> can ar o (g_ty g) = true).
  { intros c0 H. destruct m eqn:Em; [apply (CAN ltac:(congruence) c0 H)|now apply CN|discriminate]. }
  unfold content in C. destruct (v_kind v) as [x| | |f|b] eqn:K; try congruence.
  2, 3: apply (WH ltac:(congruence)); apply CAN2.
  2: apply (WH ltac:(congruence)); apply CAN2.
  (* a literal *)
  replace (r =? 0) with false by (symmetry; apply N.eqb_neq; lia).
  assert (S1 : sub32 r 1 = r - 1).
  { unfold sub32, u32. replace (r + 2 ^ 32 - 1) with (r - 1 + 1 * 2 ^ 32) by lia. rewrite N.mod_add by lia. apply N.mod_small. lia. }
  rewrite S1. assert (MB : (r - 1) * bs < 2 ^ 32) by lia.
  assert (S2 : sub32 size (u32 ((r - 1) * bs)) = size - (r - 1) * bs).
  { unfold sub32, u32. rewrite (N.mod_small ((r - 1) * bs)) by lia.
    replace (size + 2 ^ 32 - (r - 1) * bs) with (size - (r - 1) * bs + 1 * 2 ^ 32) by lia. rewrite N.mod_add by lia. apply N.mod_small. lia. }
  rewrite S2.
  assert (PT : forall j, j < r -> total o (g_ty g) (part g bs j) = rep ar o (g_ty g) (N.min ((j + 1) * bs) size - j * bs) x).
  { intros j Hj. assert (j * bs <= (r - 1) * bs) by (apply N.mul_le_mono_r; lia).
    assert (j * bs < N.min ((j + 1) * bs) size) by (rewrite N.mul_add_distr_r; lia).
    rewrite (l_rep _ _ _ LW) by lia. rewrite part_block. rewrite (map_const _ x).
    - unfold block. now rewrite between_length.
    - intros l Hl. apply block_in in Hl. symmetry. now apply C. }
  assert (HD : forall j, j < r - 1 -> N.min ((j + 1) * bs) size - j * bs = bs).
  { intros j Hj. assert ((j + 1) * bs <= (r - 1) * bs) by (apply N.mul_le_mono_r; lia). rewrite N.mul_add_distr_r in *. lia. }
  assert (RB : r * bs = (r - 1) * bs + bs) by (rewrite N.mul_sub_distr_r; assert (1 * bs <= r * bs) by (apply N.mul_le_mono_r; lia); lia).
  assert (RL : r * bs < 2 ^ 32) by lia.
  unfold u32 at 1. rewrite (N.mod_small (r * bs)) by lia.
  destruct (N.eqb_spec (r * bs) size) as [F|F]; cbn [negb].
  - eapply agrees_ret; [|exact SP]. apply new_ok; auto; try discriminate.
    intros _. split; [discriminate|]. intros j Hj. cbn [content v_kind arr g_val]. rewrite PT by auto. f_equal.
    destruct (N.lt_ge_cases j (r - 1)) as [J|J]; [symmetry; now apply HD|]. replace j with (r - 1) by lia.
    replace (r - 1 + 1) with r by lia. lia.
  - eapply agrees_ret; [|exact SP]. apply new_ok; auto; try discriminate.
    intros _. split; [discriminate|]. intros j Hj. cbn [content v_kind arr g_val]. rewrite PT by auto.
    destruct (N.ltb_spec j (r - 1)) as [J|J]; [now rewrite HD|]. replace j with (r - 1) by lia.
    replace (r - 1 + 1) with r by lia. f_equal. lia.
Qed.
End Red.
