(** Queries of masks and compaction. *)
From Verif Require Import Base Agg_Model Agg_Spec Agg_Inv Agg_Masks.
Local Open Scope N_scope.

Section Query.
Variable ar : arith.
Notation ok := (ok ar).

(** Memory nobody looks at changes *)
Definition touched (s : st) (b : nat) (x : buf) (d : N -> Z) : st :=
  {| s_bufs := set_nth b {| b_cap := b_cap x; b_dat := d |} (s_bufs s); s_vars := s_vars s; s_pend := s_pend s |}.
Lemma touched_buf s b x d c y : nth_error (s_bufs s) b = Some x -> nth_error (s_bufs s) c = Some y ->
  exists z, nth_error (s_bufs (touched s b x d)) c = Some z /\ b_cap z = b_cap y.
Proof.
  intros X Y. unfold touched. cbn [s_bufs]. destruct (Nat.eq_dec b c) as [<-|N].
  - rewrite nth_error_set_nth_eq by (apply nth_error_Some; congruence). eexists. split; [reflexivity|]. cbn. congruence.
  - rewrite nth_error_set_nth_neq by auto. eauto.
Qed.
Lemma touched_mem s b x d : nth_error (s_bufs s) b = Some x -> mem (touched s b x d) b = d.
Proof.
  intros X. unfold mem, touched. cbn [s_bufs]. now rewrite nth_error_set_nth_eq by (apply nth_error_Some; congruence).
Qed.
Lemma touched_other s b x d c : b <> c -> mem (touched s b x d) c = mem s c.
Proof. intros N. unfold mem, touched. cbn [s_bufs]. now rewrite nth_error_set_nth_neq. Qed.
Lemma touch_ok s G b x d m : ok s G -> nth_error (s_bufs s) b = Some x ->
  (forall q, In q (s_pend s) -> q_buf q <> b) ->
  (forall i v, nth_error (s_vars s) i = Some v -> v_kind v = KEval b -> v_size v <= m) ->
  (forall l, l < m -> d l = b_dat x l) ->
  ok (touched s b x d) G.
Proof.
  intros O X NP SZ D. constructor.
  - apply (ok_len _ _ _ O).
  - intros i v g V E. destruct (ok_var _ _ _ O i v g V E) as (A & B & M & C). repeat split; auto; try apply M.
    + now apply C.
    + intros l Hl. rewrite <- (proj2 (C H) l Hl). unfold content. destruct (v_kind v) as [y| | |f|c] eqn:K; auto.
      change (s_pend (touched s b x d)) with (s_pend s). destruct (Nat.eq_dec b c) as [<-|N].
      * rewrite !settle_none by auto. rewrite touched_mem by auto. unfold mem. rewrite X. apply D.
        pose proof (SZ i v V K). lia.
      * now rewrite touched_other.
  - intros i v c V K. destruct (ok_ev _ _ _ O i v c V K) as (y & Y & C).
    destruct (touched_buf s b x d c y X Y) as (z & Z & CZ). exists z. rewrite CZ. auto.
  - intros q Q. destruct (ok_pend _ _ _ O q Q) as [A B]. split; auto. unfold touched. cbn [s_bufs]. now rewrite set_nth_length.
  - intros i v g c V E P K. destruct (ok_pad _ _ _ O i v g c V E P K) as ((y & Y & C) & C2). split; auto.
    destruct (touched_buf s b x d c y X Y) as (z & Z & CZ). exists z. rewrite CZ. auto.
Qed.

Lemma not_pending s G i v b : ok s G -> nth_error (s_vars s) i = Some v -> v_kind v = KEval b -> v_dirty v = false ->
  forall q, In q (s_pend s) -> q_buf q <> b.
Proof. intros O V K D q Q <-. pose proof (proj2 (ok_pend _ _ _ O q Q) i v V K). congruence. Qed.

Lemma size4 size : size + 3 < 2 ^ 32 -> u32 (size + 4 - 1) / 4 = (size + 3) / 4.
Proof. intros H. unfold u32. rewrite N.mod_small by lia. f_equal. lia. Qed.
Lemma reduce_bool_ok s G i v g b x o : ok s G -> nth_error (s_vars s) i = Some v -> nth_error G i = Some g ->
  v_kind v = KEval b -> v_dirty v = false -> g_def g = true -> bits g -> g_size g + 3 < 2 ^ 32 ->
  (g_pad g = true \/ g_size g mod 4 = 0) -> nth_error (s_bufs s) b = Some x -> g_size g <= b_cap x ->
  (o = And \/ o = Or) ->
  exists s' w, reduce_bool s b (g_size g) o = Some (s', w) /\ ok s' G /\
    combine4 o w = b2z (query o g) /\ combine4_async o w = b2z (query o g).
Proof.
  intros O V E K CL DF BT SZ PD X CAP OO.
  destruct (ok_var _ _ _ O i v g V E) as (_ & VS & MD & FV). destruct (FV DF) as [_ CT]. clear FV.
  assert (MV : forall l, l < g_size g -> b_dat x l = g_val g l).
  { intros l Hl. rewrite <- CT by auto. rewrite (clean_content ar s G i v b l O V K CL). unfold mem. now rewrite X. }
  unfold reduce_bool. rewrite size4 by auto. rewrite X.
  set (n := (g_size g + 3) / 4). assert (NB : n * 4 < 2 ^ 32) by (unfold n; lia).
  assert (SB : sub32 (u32 (n * 4)) (g_size g) = n * 4 - g_size g).
  { unfold sub32, u32. rewrite (N.mod_small (n * 4)) by lia.
    assert (g_size g <= n * 4) by (unfold n; lia). replace (n * 4 + 2 ^ 32 - g_size g) with (n * 4 - g_size g + 1 * 2 ^ 32) by lia.
    rewrite N.mod_add by lia. apply N.mod_small. lia. }
  rewrite SB. assert (TOT : g_size g + (n * 4 - g_size g) = n * 4) by (unfold n; lia). rewrite TOT.
  assert (CP : n * 4 <= b_cap x).
  { destruct PD as [P|P].
    - destruct (ok_pad _ _ _ O i v g b V E P K) as ((y & Y & C) & _). assert (y = x) by congruence. subst y.
      rewrite VS in C. exact C.
    - unfold n. assert ((g_size g + 3) / 4 * 4 = g_size g) by lia. lia. }
  replace (b_cap x <? n * 4) with false by (symmetry; apply N.ltb_ge; lia).
  replace (n =? 0) with false by (symmetry; apply N.eqb_neq; unfold n, made in *; lia).
  set (filler := match o with Or => 0%Z | _ => 1%Z end).
  set (d := fun l => if (g_size g <=? l) && (l <? n * 4) then filler else b_dat x l).
  eexists _, _. split; [reflexivity|].
  assert (DB : forall l, l < 4 * n -> bit (d l)).
  { intros l Hl. unfold d. destruct (N.leb_spec (g_size g) l) as [L|L]; cbn [andb].
    - replace (l <? n * 4) with true by (symmetry; apply N.ltb_lt; lia). unfold filler, bit. destruct o; auto.
    - rewrite MV by auto. now apply BT. }
  assert (N0 : 0 < n) by (unfold n, made in *; lia).
  assert (QU : (o = Or -> existsb nz (lanes d n) = some_set g) /\ (o = And -> forallb nz (lanes d n) = all_set g)).
  { split; intros ->; apply eq_true_iff_eq; unfold some_set, all_set, values, lanes.
    - rewrite !existsb_exists. split.
      + intros (y & Y & Ny). apply in_map_iff in Y. destruct Y as (l & <- & L). apply in_upto in L.
        unfold d in Ny. destruct (N.leb_spec (g_size g) l) as [L1|L1]; cbn [andb] in Ny.
        * replace (l <? n * 4) with true in Ny by (symmetry; apply N.ltb_lt; lia). discriminate.
        * rewrite MV in Ny by auto. eexists. split; [apply in_map; apply in_upto; exact L1|exact Ny].
      + intros (y & Y & Ny). apply in_map_iff in Y. destruct Y as (l & <- & L). apply in_upto in L.
        exists (d l). split; [apply in_map, in_upto; lia|]. unfold d.
        replace (g_size g <=? l) with false by (symmetry; apply N.leb_gt; auto). cbn [andb]. now rewrite MV.
    - rewrite !forallb_forall. split.
      + intros H y Y. apply in_map_iff in Y. destruct Y as (l & <- & L). apply in_upto in L.
        assert (Z : nz (d l) = true) by (apply H; apply in_map, in_upto; lia). unfold d in Z.
        replace (g_size g <=? l) with false in Z by (symmetry; apply N.leb_gt; auto). cbn [andb] in Z. now rewrite MV in Z.
      + intros H y Y. apply in_map_iff in Y. destruct Y as (l & <- & L). apply in_upto in L. unfold d.
        destruct (N.leb_spec (g_size g) l) as [L1|L1]; cbn [andb].
        * replace (l <? n * 4) with true by (symmetry; apply N.ltb_lt; lia). reflexivity.
        * rewrite MV by auto. apply H. apply in_map, in_upto; auto. }
  split; [|destruct OO as [-> | ->]].
  - destruct PD as [P|P].
    + apply (touch_ok s G b x d (g_size g)); auto.
      * exact (not_pending s G i v b O V K CL).
      * intros j u U KU. rewrite <- VS. exact (proj2 (ok_pad _ _ _ O i v g b V E P K) j u U KU).
      * intros l Hl. unfold d. replace (g_size g <=? l) with false by (symmetry; apply N.leb_gt; auto). reflexivity.
    + apply (touch_ok s G b x d (2 ^ 32)); auto.
      * exact (not_pending s G i v b O V K CL).
      * intros j u U KU. destruct (spec_of ar s G j u O U) as (h & H & (_ & A & M & _)). unfold made in M. lia.
      * intros l Hl. unfold d. assert (NE : n * 4 = g_size g) by (unfold n; lia). rewrite NE.
        destruct (N.leb_spec (g_size g) l) as [L|L]; cbn [andb]; auto.
        replace (l <? g_size g) with false by (symmetry; apply N.ltb_ge; auto). reflexivity.
  - fold (folded d n And). rewrite combine4_and, combine4_async_and by auto. unfold asked. rewrite (proj2 QU eq_refl). auto.
  - fold (folded d n Or). rewrite combine4_or, combine4_async_or by auto. unfold asked. rewrite (proj1 QU eq_refl). auto.
Qed.

(** What a step should do *)
Definition agrees (G : list svar) (c : call) (r : out) : Prop :=
  exists s', r = Ok s' (snd (spec ar G c)) /\ ok s' (fst (spec ar G c)).
Lemma agrees_ret G c x t n f d p : ok (fst x) (G ++ [arr t n f d p]) /\ snd x = length G ->
  spec ar G c = add G (arr t n f d p) -> agrees G c (ret x).
Proof. intros [A B] E. exists (fst x). rewrite E. cbn [fst snd add]. unfold ret. rewrite B. auto. Qed.
Lemma agrees_same G c s r : ok s G -> spec ar G c = (G, r) -> agrees G c (Ok s r).
Proof. intros A E. exists s. rewrite E. auto. Qed.

Lemma lit_query g o x : bits g -> (forall l, l < g_size g -> x = g_val g l) -> 0 < g_size g -> (o = And \/ o = Or) ->
  negb (x =? 0)%Z = query o g.
Proof.
  intros B H N OO. destruct OO as [-> | ->]; cbn [query]; unfold all_set, some_set, values; apply eq_true_iff_eq.
  - rewrite forallb_forall. split.
    + intros X y Y. apply in_map_iff in Y. destruct Y as (l & <- & L). apply in_upto in L. now rewrite <- H.
    + intros F. rewrite (H 0 N). apply F. apply in_map, in_upto; auto.
  - rewrite existsb_exists. split.
    + intros X. exists x. split; auto. rewrite (H 0 N). apply in_map, in_upto; auto.
    + intros (y & Y & Ny). apply in_map_iff in Y. destruct Y as (l & <- & L). apply in_upto in L. now rewrite (H l).
Qed.
Lemma queried_some s v g o r : fits ar s v g -> g_def g = true -> bits g -> (o = And \/ o = Or) ->
  queried v o = Some r -> r = query o g.
Proof.
  intros (_ & _ & M & F) D B OO Q. destruct (F D) as [_ C]. unfold made in M. unfold queried in Q.
  unfold content in C. destruct (v_kind v) as [x| | |f|b] eqn:K; try discriminate.
  - assert (r = negb (x =? 0)%Z) by (destruct o; congruence). subst r.
    apply lit_query; auto; lia.
  - destruct o; try discriminate. injection Q as <-. change true with (negb (1 =? 0)%Z).
    apply lit_query; auto; lia.
Qed.
Lemma queried_none v o : queried v o = None -> forall x, v_kind v <> KLit x.
Proof. unfold queried. intros Q x K. rewrite K in Q. destruct o; discriminate. Qed.

Lemma ty_eqb_spec a b : reflect (a = b) (ty_eqb a b).
Proof. destruct a, b; constructor; congruence. Qed.

Lemma query_ok s G i g o : ok s G -> nth_error G i = Some g -> legal1 ar 0 s i (CQuery o i) g ->
  agrees G (CQuery o i) (var_query ar o s i).
Proof.
  intros O E (OO & L). destruct (var_of ar s G i g O E) as (v & V & F).
  unfold var_query. rewrite V. destruct (F) as (FT & _). rewrite FT.
  destruct (ty_eqb_spec (g_ty g) TBool) as [T|T]; cbn [negb].
  2: { apply agrees_same; auto. cbn [spec operand]. rewrite E. cbn [spec1]. destruct (g_ty g); congruence. }
  destruct (L T) as (D & B & SZ & P). destruct (queried v o) as [r|] eqn:Q.
  { apply agrees_same; auto. cbn [spec operand]. rewrite E. cbn [spec1]. rewrite T.
    now rewrite (queried_some s v g o r F D B OO Q). }
  destruct (eval_data ar s G i g v O E D V (queried_none v o Q)) as (w & b & x & W & K & WS & _ & CL & X & CAP & M).
  rewrite W. unfold data. rewrite K, WS.
  destruct (var_eval_ok ar s G i g O E) as (O1 & _).
  destruct (reduce_bool_ok _ G i w g b x o O1 W E K CL D B SZ P X CAP OO) as (s' & z & -> & O2 & C1 & _).
  apply agrees_same; auto. cbn [spec operand]. rewrite E. cbn [spec1]. rewrite T. rewrite C1. now destruct (query o g).
Qed.
Lemma query_async_ok s G i g o : ok s G -> nth_error G i = Some g -> legal1 ar 0 s i (CQuery o i) g ->
  agrees G (CQueryAsync o i) (var_query_async ar o s i).
Proof.
  intros O E (OO & L). destruct (var_of ar s G i g O E) as (v & V & F).
  unfold var_query_async. rewrite V. destruct (F) as (FT & _). rewrite FT.
  destruct (ty_eqb_spec (g_ty g) TBool) as [T|T]; cbn [negb].
  2: { apply agrees_same; auto. cbn [spec operand]. rewrite E. cbn [spec1]. destruct (g_ty g); congruence. }
  assert (SP : spec ar G (CQueryAsync o i) = add G (scalar TBool (b2z (query o g))))
    by (cbn [spec operand]; rewrite E; cbn [spec1]; now rewrite T).
  destruct (L T) as (D & B & SZ & P). destruct (queried v o) as [r|] eqn:Q.
  { eapply agrees_ret; [|exact SP]. apply new_ok; auto; try (unfold made; cbn; lia); try discriminate.
    intros _. split; [discriminate|]. intros l _. cbn. rewrite (queried_some s v g o r F D B OO Q). reflexivity. }
  destruct (eval_data ar s G i g v O E D V (queried_none v o Q)) as (w & b & x & W & K & WS & _ & CL & X & CAP & M).
  rewrite W. unfold data. rewrite K, WS.
  destruct (var_eval_ok ar s G i g O E) as (O1 & _).
  destruct (reduce_bool_ok _ G i w g b x o O1 W E K CL D B SZ P X CAP OO) as (s' & z & -> & O2 & _ & C1).
  eapply agrees_ret; [|exact SP]. apply fresh_ok; auto. unfold made; lia.
Qed.

Lemma filter_all {A} (f : A -> bool) l : (forall x, In x l -> f x = true) -> filter f l = l.
Proof. induction l as [|x l IH]; intros H; cbn; auto. rewrite (H x) by now left. f_equal. apply IH. intros; apply H; now right. Qed.
Lemma filter_none {A} (f : A -> bool) l : (forall x, In x l -> f x = false) -> filter f l = [].
Proof. induction l as [|x l IH]; intros H; cbn; auto. rewrite (H x) by now left. apply IH. intros; apply H; now right. Qed.
Lemma filter_len_le {A} (f : A -> bool) l : (length (filter f l) <= length l)%nat.
Proof. induction l; cbn; auto. destruct (f a); cbn; lia. Qed.
Lemma compress_ok workers ideal s G i g : 0 < ideal -> ok s G -> nth_error G i = Some g -> legal1 ar ideal s i (CCompress i) g ->
  agrees G (CCompress i) (var_compress ar workers ideal s i).
Proof.
  intros I0 O E (D & SZ). destruct (var_of ar s G i g O E) as (v & V & F).
  unfold var_compress. rewrite V. destruct (F) as (FT & FS & MD & FC). rewrite FT.
  destruct (ty_eqb_spec (g_ty g) TBool) as [T|T]; cbn [negb].
  2: { apply agrees_same; auto. cbn [spec operand]. rewrite E. cbn [spec1]. destruct (g_ty g); congruence. }
  assert (SP : spec ar G (CCompress i) =
    match active g with
    | [] => (G, REmpty)
    | l => add G (arr TInt (N.of_nat (length l)) (fun k => Z.of_N (nth (N.to_nat k) l 0)) true true)
    end) by (cbn [spec operand]; rewrite E; cbn [spec1]; now rewrite T).
  assert (AL : N.of_nat (length (active g)) <= g_size g).
  { unfold active. pose proof (filter_len_le (fun l => negb (g_val g l =? 0)%Z) (upto (g_size g))) as H. rewrite upto_length in H. lia. }
  destruct (FC D) as [NU C]. unfold made in MD.
  assert (EV : (forall x, v_kind v <> KLit x) ->
    agrees G (CCompress i)
      (match nth_error (s_vars (var_eval ar s i)) i with
       | None => UB
       | Some v => match data v with
         | None => UB
         | Some b =>
             match compress workers ideal (mem (var_eval ar s i) b) (v_size v) with
             | [] => Ok (var_eval ar s i) REmpty
             | l => ret (fresh (var_eval ar s i) TInt (N.of_nat (length l)) (fun k => Z.of_N (nth (N.to_nat k) l 0)))
             end
         end
       end)).
  { intros NL. destruct (eval_data ar s G i g v O E D V NL) as (w & b & x & W & K & WS & _ & CL & X & CAP & M).
    rewrite W. unfold data. rewrite K, WS. destruct (var_eval_ok ar s G i g O E) as (O1 & _).
    assert (CE : compress workers ideal (mem (var_eval ar s i) b) (g_size g) = active g).
    { unfold compress. replace (u32 (g_size g + ideal - 1) / ideal =? 0) with false.
      - rewrite andb_false_r. unfold active. apply filter_ext_in. intros l L. apply in_upto in L. now rewrite M.
      - symmetry. apply N.eqb_neq. unfold u32. rewrite N.mod_small by lia. intros Z. apply N.div_small_iff in Z; lia. }
    rewrite CE. destruct (active g) as [|a l] eqn:A.
    - apply agrees_same; auto.
    - eapply agrees_ret; [|exact SP]. apply fresh_ok; auto. unfold made. cbn [length] in AL |- *. lia. }
  unfold content in C. destruct (v_kind v) as [x| | |f|b] eqn:K; try (apply EV; congruence); try congruence.
  destruct (x =? 0)%Z eqn:X.
  - replace (active g) with (@nil N) in SP; [apply agrees_same; auto|]. symmetry. unfold active. apply filter_none.
    intros l L. apply in_upto in L. rewrite <- C by auto. now rewrite X.
  - assert (A : active g = upto (g_size g)).
    { unfold active. apply filter_all. intros l L. apply in_upto in L. rewrite <- C by auto. now rewrite X. }
    assert (SP' : spec ar G (CCompress i) = add G (arr TInt (g_size g) (fun k => Z.of_N (nth (N.to_nat k) (upto (g_size g)) 0)) true true)).
    { rewrite SP, A. destruct (upto (g_size g)) as [|a l] eqn:U.
      - apply (f_equal (@length N)) in U. rewrite upto_length in U. cbn in U. lia.
      - assert (H : N.of_nat (length (a :: l)) = g_size g) by (rewrite <- U, upto_length; lia).
        cbv zeta. now rewrite H. }
    rewrite FS. unfold counter. destruct (N.eqb_spec (g_size g) 1) as [S1|S1].
    + eapply agrees_ret; [|exact SP']. rewrite S1. apply new_ok; auto; try (unfold made; cbn; lia); try discriminate.
      intros _. split; [discriminate|]. intros l L. cbn [content v_kind arr g_val]. rewrite upto_nth by lia. lia.
    + eapply agrees_ret; [|exact SP']. apply new_ok; auto; try (unfold made; cbn; lia); try discriminate.
      intros _. split; [discriminate|]. intros l L. cbn [content v_kind arr g_val]. now rewrite upto_nth.
Qed.
End Query.
