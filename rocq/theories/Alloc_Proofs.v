From Verif Require Import Base Bits Alloc_Model.
Local Open Scope N_scope.

(** ** Descriptors *)

Lemma info_encode_add size backend shared device :
  size < 2 ^ 53 -> backend < 4 -> device < 256 ->
  info_encode size backend shared device =
  size * 2 ^ 11 + N.b2n shared * 2 ^ 10 + backend * 2 ^ 8 + device.
Proof.
  intros Hs Hb Hd. unfold info_encode.
  rewrite u64_small.
  2:{ rewrite N.shiftl_mul_pow2. lia. }
  assert (Hsh : N.b2n shared <= 1) by (destruct shared; simpl; lia).
  rewrite <- !N.lor_assoc.
  rewrite (lor_shiftl_add backend device 8) by lia.
  rewrite (lor_shiftl_add (N.b2n shared) _ 10) by lia.
  rewrite (lor_shiftl_add size _ 11) by lia. lia.
Qed.

Lemma info_decode_encode size backend shared device :
  size < 2 ^ 53 -> backend < 4 -> device < 256 ->
  let v := info_encode size backend shared device in
  info_size v = size /\ info_backend v = backend /\ info_shared v = shared /\
  info_device v = device /\ v < 2 ^ 64.
Proof.
  intros Hs Hb Hd v. unfold v. rewrite info_encode_add by auto.
  unfold info_size, info_backend, info_shared, info_device.
  rewrite !N.shiftr_div_pow2.
  assert (L1 : forall x, N.land x 1 = x mod 2) by (intros x; exact (N.land_ones x 1)).
  rewrite L1.
  change 3 with (N.ones 2). change 255 with (N.ones 8).
  rewrite !N.land_ones.
  assert (Hsh : N.b2n shared = if shared then 1 else 0) by (destruct shared; reflexivity).
  rewrite Hsh.
  change (2 ^ 1) with 2. change (2 ^ 2) with 4.
  change (2 ^ 53) with 9007199254740992 in *. change (2 ^ 64) with 18446744073709551616.
  change (2 ^ 11) with 2048. change (2 ^ 10) with 1024. change (2 ^ 8) with 256 in *.
  repeat split; destruct shared; lia.
Qed.

Lemma info_encode_inj s1 b1 h1 d1 s2 b2 h2 d2 :
  s1 < 2 ^ 53 -> b1 < 4 -> d1 < 256 -> s2 < 2 ^ 53 -> b2 < 4 -> d2 < 256 ->
  info_encode s1 b1 h1 d1 = info_encode s2 b2 h2 d2 ->
  s1 = s2 /\ b1 = b2 /\ h1 = h2 /\ d1 = d2.
Proof.
  intros H1 H2 H3 H4 H5 H6 E.
  destruct (info_decode_encode s1 b1 h1 d1 H1 H2 H3) as (A1 & A2 & A3 & A4 & _).
  destruct (info_decode_encode s2 b2 h2 d2 H4 H5 H6) as (B1 & B2 & B3 & B4 & _).
  rewrite E in *. repeat split; congruence.
Qed.

(** ** Sizes *)

Lemma sub64_ge a b : a < 2 ^ 64 -> b <= a -> sub64 a b = a - b.
Proof.
  intros Ha Hb. unfold sub64, u64.
  replace (a + 2 ^ 64 - b) with ((a - b) + 1 * 2 ^ 64) by lia.
  rewrite N.mod_add by lia. apply N.mod_small. lia.
Qed.

Lemma round_pow2_spec x :
  0 < x <= 2 ^ 63 -> round_pow2 x = 2 ^ N.size (x - 1).
Proof.
  intros Hx. unfold round_pow2. rewrite sub64_ge by lia.
  set (y := x - 1).
  match goal with |- u64 (?t + 1) = _ => assert (H : smeared 64 y t) end.
  { change 64 with (2 * (2 * (2 * (2 * (2 * (2 * 1)))))).
    repeat first [apply (smeared_double 32) | apply (smeared_double 16) | apply (smeared_double 8)
      | apply (smeared_double 4) | apply (smeared_double 2) | apply (smeared_double 1)].
    apply smeared_1. }
  apply smeared_ones in H; [|unfold y; lia]. rewrite H.
  rewrite N.ones_equiv.
  replace (N.pred (2 ^ N.size y) + 1) with (2 ^ N.size y).
  2:{ pose proof (pow2_pos (N.size y)). lia. }
  apply u64_small. apply N.pow_lt_mono_r; [lia|].
  destruct (N.eq_dec y 0) as [->|Hy]; [reflexivity|].
  rewrite N.size_log2 by auto. assert (N.log2 y < 63) by (apply N.log2_lt_pow2; unfold y in *; lia). lia.
Qed.

Lemma round_pow2_bounds x :
  0 < x <= 2 ^ 63 -> x <= round_pow2 x /\ round_pow2 x < 2 * x.
Proof.
  intros Hx. rewrite round_pow2_spec by auto.
  destruct (N.eq_dec (x - 1) 0) as [E|E].
  - rewrite E. change (2 ^ N.size 0) with 1. lia.
  - rewrite N.size_log2 by auto. pose proof (N.log2_spec (x - 1) ltac:(lia)) as [H1 H2].
    rewrite N.pow_succ_r' in *. lia.
Qed.

Lemma malloc_size_ok vw backend size :
  0 < size <= 2 ^ 51 -> vw <= 2 ^ 16 ->
  size <= malloc_size vw backend size /\ malloc_size vw backend size < 2 ^ 53 /\
  exists k, malloc_size vw backend size = 2 ^ k.
Proof.
  intros Hs Hv. unfold malloc_size.
  match goal with |- context [round_pow2 ?x] =>
    assert (Hx : size <= x <= 2 ^ 52) end.
  { destruct (negb (is_host backend) || (vw <? 16)) eqn:E.
    - rewrite (u64_small (size + 63)) by lia. rewrite u64_small; lia.
    - apply orb_false_iff in E as [_ E]. apply N.ltb_ge in E.
      rewrite (u64_small (vw * 8)) by lia. cbv zeta.
      rewrite (u64_small (size + vw * 8)) by lia. rewrite sub64_ge by lia.
      set (ps := vw * 8).
      assert (Hq : (size + ps - 1) / ps * ps <= size + ps - 1).
      { rewrite N.mul_comm. apply N.mul_div_le. lia. }
      assert (Hq2 : size <= (size + ps - 1) / ps * ps).
      { pose proof (N.div_mod (size + ps - 1) ps ltac:(lia)).
        pose proof (N.mod_lt (size + ps - 1) ps ltac:(lia)). lia. }
      rewrite u64_small by lia. lia. }
  match type of Hx with _ <= ?x <= _ => set (y := x) in * end.
  pose proof (round_pow2_bounds y ltac:(lia)).
  repeat split; try lia. exists (N.size (y - 1)). apply round_pow2_spec. lia.
Qed.

(** ** List helpers *)

Lemma lookup_perm p i l : lookup p l = Some i -> Permutation l ((p, i) :: erase p l).
Proof.
  induction l as [|[q j] r IH]; cbn [lookup erase]; [discriminate|].
  destruct (N.eqb_spec q p) as [->|Hne].
  - intros [= ->]. reflexivity.
  - intros H. rewrite perm_swap. apply perm_skip. auto.
Qed.

Lemma lookup_In p i l : lookup p l = Some i -> In (p, i) l.
Proof.
  intros H. eapply Permutation_in; [apply Permutation_sym, lookup_perm; eauto|now left].
Qed.

Lemma lookup_None p l : ~ In p (map fst l) -> lookup p l = None.
Proof.
  induction l as [|[q j] r IH]; cbn [lookup map fst In]; auto.
  intros H. destruct (N.eqb_spec q p) as [->|Hne]; [tauto|apply IH; tauto].
Qed.

Lemma pop_free_perm i l p r : pop_free i l = Some (p, r) -> Permutation l ((i, p) :: r).
Proof.
  revert p r; induction l as [|[j q] l IH]; intros p r; cbn [pop_free]; [discriminate|].
  destruct (N.eqb_spec j i) as [->|Hne].
  - intros [= -> ->]. reflexivity.
  - destruct (pop_free i l) as [[p' r']|]; cbn [bind fst snd]; [|discriminate].
    intros [= -> <-]. rewrite perm_swap. apply perm_skip. now apply IH.
Qed.

Lemma extract_perm {A} n (l : list A) x r : extract n l = Some (x, r) -> Permutation l (x :: r).
Proof.
  revert n x r; induction l as [|y l IH]; intros n x r; [destruct n; discriminate|].
  destruct n as [|n]; cbn [extract].
  - intros [= -> ->]. reflexivity.
  - destruct (extract n l) as [[x' r']|] eqn:E; cbn [bind fst snd]; [|discriminate].
    intros [= -> <-]. rewrite perm_swap. apply perm_skip. eauto.
Qed.

Lemma sum_b_app b l m : sum_b b (l ++ m) = sum_b b l + sum_b b m.
Proof. induction l as [|i r IH]; cbn [sum_b app]; lia. Qed.

Lemma sum_b_perm b l m : Permutation l m -> sum_b b l = sum_b b m.
Proof. induction 1; cbn [sum_b]; lia. Qed.

Lemma concat_perm {A} (l m : list (list A)) : Permutation l m -> Permutation (concat l) (concat m).
Proof.
  induction 1; cbn [concat]; auto.
  - now apply Permutation_app_head.
  - rewrite !app_assoc. apply Permutation_app_tail, Permutation_app_comm.
  - etransitivity; eauto.
Qed.

Lemma filter_split_perm {A} (f : A -> bool) l :
  Permutation l (filter f l ++ filter (fun x => negb (f x)) l).
Proof.
  induction l as [|x l IH]; cbn [filter]; auto.
  destruct (f x); cbn [negb app].
  - now apply perm_skip.
  - rewrite <- Permutation_middle. now apply perm_skip.
Qed.

(** ** Modular sums *)
Lemma u64_add_l a b : u64 (u64 a + b) = u64 (a + b).
Proof. unfold u64. rewrite N.add_mod_idemp_l; auto. lia. Qed.

Lemma sub64_u64 S s : s < 2 ^ 64 -> sub64 (u64 (S + s)) s = u64 S.
Proof.
  intros Hs. unfold sub64, u64.
  replace ((S + s) mod 2 ^ 64 + 2 ^ 64 - s) with ((S + s) mod 2 ^ 64 + (2 ^ 64 - s)) by lia.
  rewrite N.add_mod_idemp_l by lia.
  replace (S + s + (2 ^ 64 - s)) with (S + 1 * 2 ^ 64) by lia.
  now rewrite N.mod_add by lia.
Qed.

Lemma sub64_u64_u64 S s : sub64 (u64 (S + s)) (u64 s) = u64 S.
Proof.
  rewrite <- (sub64_u64 S (u64 s)) by apply u64_lt. f_equal.
  unfold u64. rewrite N.add_mod_idemp_r; auto. lia.
Qed.

(** ** The invariant *)

Definition swap (e : N * N) : N * N := (snd e, fst e).
Definition pend_entry (d : pend) : list (N * N) :=
  if pd_ptr d =? 0 then [] else [(pd_info d, pd_ptr d)].

(** Everything that holds memory, as (descriptor, pointer). *)
Definition settled (s : ast) : list (N * N) :=
  map swap (used s) ++ free s ++ map snd (parked s) ++ concat (batches s) ++
  concat (releasing s) ++ leaked s.
Definition entries (s : ast) : list (N * N) := flat_map pend_entry (pending s) ++ settled s.

Definition failed_sum (b : N) (l : list (N * N)) : N :=
  fold_right (fun e acc => (if fst e =? b then snd e else 0) + acc) 0 l.

Definition disj (e1 e2 : N * N * N) : Prop :=
  let '(p, sz, _) := e1 in let '(q, sz', _) := e2 in
  p + N.max 1 sz <= q \/ q + N.max 1 sz' <= p.

Definition good (o : list (N * N * N)) (e : N * N) : Prop :=
  fst e < 2 ^ 64 /\ snd e <> 0 /\ In (snd e, info_size (fst e), kind_of (fst e)) o.

Definition pend_ok (d : pend) : Prop :=
  pd_info d < 2 ^ 64 /\ info_size (pd_info d) = pd_size d /\
  info_backend (pd_info d) = pd_backend d /\ pd_req d <= pd_size d.

Record Inv (s : ast) : Prop := {
  inv_nodup : NoDup (map snd (entries s));
  inv_good  : Forall (good (os s)) (entries s);
  inv_os    : ForallOrdPairs disj (os s);
  inv_pend  : Forall pend_ok (pending s);
  inv_usage : forall b, usage s b = u64 (sum_b b (map snd (used s)));
  inv_alloc : forall b, b < 4 -> allocated s b =
                u64 (sum_b b (map fst (settled s)) + sum_b b (map fst (concat (trimmed s)))
                     + failed_sum b (failed s)) }.

(** Conditions on the environment under which the invariant is maintained:
    requests of sensible size, backend and device numbers that fit their
    fields, and a system that does not refuse large blocks of host memory. *)
Definition ev_ok (e : aev) : bool :=
  match e with
  | EReuse vw backend size _ device =>
      (0 <? size) && (size <=? 2 ^ 51) && (vw <=? 2 ^ 16) && (backend <? 4) && (device <? 256)
  | EOsAlloc vw backend size _ device r1 r2 =>
      (0 <? size) && (size <=? 2 ^ 51) && (vw <=? 2 ^ 16) && (backend <? 4) && (device <? 256) &&
      negb (is_host backend && negb (malloc_size vw backend size <? HUGE) &&
            match r1, r2 with None, None => true | _, _ => false end)
  | EMove _ dst => dst <? 4
  | _ => true
  end.

Lemma Inv_init : Inv a_init.
Proof. split; try constructor; intros; reflexivity. Qed.

Lemma malloc_info_ok vw backend size shared device :
  0 < size <= 2 ^ 51 -> vw <= 2 ^ 16 -> backend < 4 -> device < 256 ->
  let i := malloc_info vw backend size shared device in
  info_size i = malloc_size vw backend size /\ info_backend i = backend /\ i < 2 ^ 64 /\
  size <= malloc_size vw backend size.
Proof.
  intros Hs Hv Hb Hd i. destruct (malloc_size_ok vw backend size Hs Hv) as (H1 & H2 & _).
  unfold i, malloc_info.
  destruct (info_decode_encode (malloc_size vw backend size) backend
     (if backend =? B_None then false else shared) device H2 Hb Hd) as (A & B & _ & _ & C).
  auto.
Qed.

Lemma used_ptr_not_In s p : Inv s -> forall rest, Permutation (entries s) rest ->
  (exists i r, rest = (i, p) :: r /\ (forall q, In q (map fst (used s)) -> In q (map snd r))) ->
  ~ In p (map fst (used s)).
Proof.
  intros HI rest HP (i & r & -> & Hsub) Hin.
  pose proof (inv_nodup _ HI) as Hn.
  apply (Permutation_map snd) in HP. eapply Permutation_NoDup in Hn; [|exact HP].
  cbn [map snd] in Hn. inversion Hn as [|? ? Hni _]; subst. apply Hni. auto.
Qed.

Lemma In_used_swap p l : In p (map fst l) -> In p (map snd (map swap l)).
Proof. rewrite map_map. cbn. auto. Qed.

(** Reestablishing the ownership part after a permutation of the entries. *)
Lemma own_perm o E E' :
  Permutation E E' -> NoDup (map snd E) -> Forall (good o) E ->
  NoDup (map snd E') /\ Forall (good o) E'.
Proof.
  intros HP Hn Hg. split.
  - eapply Permutation_NoDup; [apply Permutation_map, HP|exact Hn].
  - eapply Permutation_Forall; eauto.
Qed.

Lemma kind_host_move sz dst : sz < 2 ^ 53 -> dst < 4 -> is_host dst = true ->
  kind_of (info_encode sz dst false 0) = 0.
Proof.
  intros Hs Hd Hh. unfold kind_of.
  destruct (info_decode_encode sz dst false 0 Hs Hd ltac:(lia)) as (_ & -> & _). now rewrite Hh.
Qed.

Lemma os_fresh_spec p sz o : os_fresh p sz o = true ->
  p <> 0 /\ Forall (disj (p, sz, 0)) o.
Proof.
  unfold os_fresh. rewrite !andb_true_iff, forallb_forall. intros [[H1 _] H2].
  apply N.ltb_lt in H1. split; [lia|]. apply Forall_forall. intros [[q s] k] Hin.
  specialize (H2 _ Hin). cbn in H2. apply orb_true_iff in H2. cbn.
  destruct H2 as [H2|H2]; apply N.leb_le in H2; auto.
Qed.

Lemma disj_kind p s k k' e : disj (p, s, k) e -> disj (p, s, k') e.
Proof. destruct e as [[q s'] k'']. auto. Qed.

Lemma disj_irrefl p s k k' s' : ~ disj (p, s, k) (p, s', k').
Proof. cbn. lia. Qed.

Lemma os_remove_spec p sz k l :
  In (p, sz, k) l -> exists a b, os_remove p sz k l = Some (a ++ b) /\ l = a ++ (p, sz, k) :: b.
Proof.
  induction l as [|[[q s] j] l IH]; [intros []|]. intros Hin. cbn [os_remove].
  destruct ((q =? p) && (s =? sz) && (j =? k)) eqn:E.
  - rewrite !andb_true_iff, !N.eqb_eq in E. destruct E as [[-> ->] ->].
    exists [], l. auto.
  - destruct Hin as [[= -> -> ->]|Hin].
    { rewrite !N.eqb_refl in E. discriminate. }
    destruct (IH Hin) as (a & b & -> & ->). cbn [bind].
    exists ((q, s, j) :: a), b. auto.
Qed.

Lemma FOP_remove a x b : ForallOrdPairs disj (a ++ x :: b) -> ForallOrdPairs disj (a ++ b).
Proof.
  induction a as [|y a IH]; cbn [app].
  - now inversion 1.
  - inversion 1 as [|? ? Hy Hr]; subst. constructor; auto.
    rewrite Forall_app in *. destruct Hy as [H1 H2]. inversion H2; auto.
Qed.

(** Entries of the OS table with the same address are the same entry. *)
Lemma os_ptr_inj o p s k s' k' : ForallOrdPairs disj o ->
  In (p, s, k) o -> In (p, s', k') o -> (s, k) = (s', k').
Proof.
  induction 1 as [|x l Hx Hl IH]; [intros []|].
  rewrite Forall_forall in Hx. intros [->|H1] [E|H2].
  - congruence.
  - exfalso. exact (disj_irrefl _ _ _ _ _ (Hx _ H2)).
  - subst. exfalso. exact (disj_irrefl _ _ _ _ _ (Hx _ H1)).
  - auto.
Qed.

Lemma os_remove_all_ok l : forall o rest,
  ForallOrdPairs disj o -> NoDup (map snd (l ++ rest)) -> Forall (good o) (l ++ rest) ->
  exists o', os_remove_all l o = Some o' /\ ForallOrdPairs disj o' /\ Forall (good o') rest.
Proof.
  induction l as [|[i p] l IH]; intros o rest Ho Hn Hg; cbn [app] in *.
  - exists o. auto.
  - cbn [os_remove_all]. inversion Hg as [|? ? Hg1 Hg2]; subst.
    cbn [map snd] in Hn. inversion Hn as [|? ? Hni Hn2]; subst.
    destruct Hg1 as (_ & _ & Hin). cbn in Hin.
    destruct (os_remove_spec _ _ _ _ Hin) as (a & b & E & ->). rewrite E. cbn [bind].
    apply IH; auto.
    + eapply FOP_remove; eauto.
    + rewrite Forall_forall in *. intros [j q] Hjq. destruct (Hg2 _ Hjq) as (A & B & C).
      cbn in *. split; [auto|]. split; [auto|]. cbn.
      apply in_app_or in C. apply in_or_app. destruct C as [C|[C|C]]; auto.
      exfalso. injection C as E1 _ _. apply Hni. rewrite E1.
      change q with (snd (j, q)). now apply in_map.
Qed.

Lemma good_cons_os o e x : good o e -> good (x :: o) e.
Proof. intros (A & B & C). split; [auto|]. split; [auto|]. now right. Qed.

Lemma settled_sum b s : sum_b b (map fst (settled s)) =
  sum_b b (map snd (used s)) + sum_b b (map fst (free s)) + sum_b b (map fst (map snd (parked s)))
  + sum_b b (map fst (concat (batches s))) + sum_b b (map fst (concat (releasing s)))
  + sum_b b (map fst (leaked s)).
Proof.
  unfold settled. rewrite !map_app, !sum_b_app.
  rewrite (map_map swap fst). change (fun x => fst (swap x)) with (@snd N N). lia.
Qed.

Lemma in_settled_used s i p : In (p, i) (used s) -> In (i, p) (settled s).
Proof.
  intros H. unfold settled. apply in_or_app. left.
  change (i, p) with (swap (p, i)). now apply in_map.
Qed.

Definition step_ok (s : ast) (e : aev) : Prop :=
  a_step s e <> AUB /\
  forall s' o, a_step s e = AOk s' o -> Inv s' .

Ltac fproj := cbn [used free parked batches pending releasing trimmed usage allocated watermark os leaked failed].

Lemma step_reuse s vw backend size shared device :
  Inv s -> ev_ok (EReuse vw backend size shared device) = true ->
  step_ok s (EReuse vw backend size shared device).
Proof.
  intros HI Hok. cbn [ev_ok] in Hok. rewrite !andb_true_iff in Hok.
  destruct Hok as [[[[H1 H2] H3] H4] H5].
  apply N.ltb_lt in H1, H4, H5. apply N.leb_le in H2, H3.
  unfold step_ok. cbn [a_step].
  destruct (N.eqb_spec size 0); [lia|]. cbv zeta.
  set (ai := malloc_info vw backend size shared device).
  destruct (malloc_info_ok vw backend size shared device ltac:(lia) H3 H4 H5)
    as (A1 & A2 & A3 & A4). fold ai in A1, A2, A3.
  destruct (pop_free ai (free s)) as [[p fr]|] eqn:E; [|split; [discriminate|discriminate]].
  split; [discriminate|]. intros s' o [= <- <-].
  apply pop_free_perm in E.
  assert (HP : Permutation (entries s)
     ((ai, p) :: flat_map pend_entry (pending s) ++ map swap (used s) ++ fr ++ map snd (parked s) ++ concat (batches s) ++
      concat (releasing s) ++ leaked s)).
  { unfold entries, settled. rewrite E. cbn [app].
    rewrite <- !Permutation_middle. reflexivity. }
  assert (Hnp : ~ In p (map fst (used s))).
  { eapply used_ptr_not_In; [exact HI|exact HP|].
    eexists _, _; split; [reflexivity|]. intros q Hq.
    rewrite !map_app, !in_app_iff. right; left. now apply In_used_swap. }
  unfold emplace. rewrite lookup_None by auto.
  destruct (own_perm _ _ _ HP (inv_nodup _ HI) (inv_good _ HI)) as [Hn Hg].
  assert (HP2 : Permutation
     ((ai, p) :: flat_map pend_entry (pending s) ++ map swap (used s) ++ fr ++ map snd (parked s) ++ concat (batches s) ++
      concat (releasing s) ++ leaked s)
     (flat_map pend_entry (pending s) ++ map swap ((p, ai) :: used s) ++ fr ++ map snd (parked s) ++ concat (batches s) ++
      concat (releasing s) ++ leaked s)).
  { change (map swap ((p, ai) :: used s)) with ((ai, p) :: map swap (used s)).
    generalize (flat_map pend_entry (pending s)). intros l1.
    generalize (map swap (used s)). intros l2. rewrite <- app_comm_cons. apply Permutation_middle. }
  destruct (own_perm _ _ _ HP2 Hn Hg) as [Hn2 Hg2].
  split; cbn [used free parked batches pending releasing trimmed usage allocated watermark os leaked failed]; auto.
  - apply HI.
  - apply HI.
  - intros b. cbn [map snd sum_b]. rewrite A2, A1. unfold fupd.
    rewrite (inv_usage _ HI b). destruct (N.eqb_spec b backend) as [->|Hne].
    + rewrite N.eqb_refl, (inv_usage _ HI), u64_add_l. f_equal. lia.
    + destruct (N.eqb_spec backend b); [congruence|]. reflexivity.
  - intros b Hb. rewrite (inv_alloc _ HI b Hb). rewrite !settled_sum. fproj.
    rewrite (sum_b_perm b _ _ (Permutation_map fst E)).
    cbn [map fst snd sum_b]. f_equal. lia.
Qed.

Lemma fupd_same f b v : fupd f b v b = v.
Proof. unfold fupd. now rewrite N.eqb_refl. Qed.
Lemma fupd_other f b v x : x <> b -> fupd f b v x = f x.
Proof. intros H. unfold fupd. destruct (N.eqb_spec x b); congruence. Qed.

Lemma step_osalloc s vw backend size shared device r1 r2 :
  Inv s -> ev_ok (EOsAlloc vw backend size shared device r1 r2) = true ->
  step_ok s (EOsAlloc vw backend size shared device r1 r2).
Proof.
  intros HI Hok. cbn [ev_ok] in Hok. rewrite !andb_true_iff in Hok.
  destruct Hok as [[[[[H1 H2] H3] H4] H5] H6].
  apply N.ltb_lt in H1, H4, H5. apply N.leb_le in H2, H3. apply negb_true_iff in H6.
  unfold step_ok. cbn [a_step]. cbv zeta.
  set (ai := malloc_info vw backend size shared device).
  destruct (malloc_info_ok vw backend size shared device ltac:(lia) H3 H4 H5)
    as (A1 & A2 & A3 & A4). fold ai in A1, A2, A3.
  set (sz := malloc_size vw backend size) in *.
  match goal with |- context [match ?m with Some q => if os_fresh _ _ _ then _ else _ | None => _ end] =>
    remember m as fo eqn:Hfo end.
  destruct fo as [q|].
  - destruct (os_fresh q sz (os s)) eqn:Hf; [|split; discriminate].
    split; [discriminate|]. intros s' o [= <- <-].
    apply os_fresh_spec in Hf as [Hq Hd].
    assert (Hp : sys_alloc backend sz r1 r2 = q).
    { unfold sys_alloc, aligned_malloc. destruct r1 as [q1|]; [|destruct r2 as [q2|]].
      - injection Hfo as ->. destruct (is_host backend); [destruct (sz <? HUGE)|]; reflexivity.
      - destruct (is_host backend); [|discriminate]. destruct (sz <? HUGE); [discriminate|].
        cbn in Hfo. congruence.
      - discriminate. }
    rewrite Hp. split; fproj.
    + unfold entries. fproj. cbn [flat_map]. unfold pend_entry at 1. cbn [pd_ptr pd_info].
      destruct (N.eqb_spec q 0); [contradiction|]. cbn [app map snd].
      constructor; [|apply HI]. intros Hin. apply in_map_iff in Hin as ([j q'] & Eq & Hin).
      cbn in Eq. subst q'. pose proof (inv_good _ HI) as Hg. rewrite Forall_forall in Hg.
      destruct (Hg _ Hin) as (_ & _ & Hin2). rewrite Forall_forall in Hd.
      exact (disj_irrefl _ _ _ _ _ (Hd _ Hin2)).
    + unfold entries. fproj. cbn [flat_map]. unfold pend_entry at 1. cbn [pd_ptr pd_info].
      destruct (N.eqb_spec q 0); [contradiction|]. cbn [app].
      constructor.
      * split; [exact A3|]. split; [exact Hq|]. left. cbn [fst snd]. now rewrite A1.
      * eapply Forall_impl; [|apply HI]. intros e He. now apply good_cons_os.
    + constructor; [|apply HI]. eapply Forall_impl; [|exact Hd]. intros e. apply disj_kind.
    + constructor; [|apply HI]. repeat split; cbn; auto.
    + apply HI.
    + apply HI.
  - split; [discriminate|]. intros s' o [= <- <-].
    assert (Hp : sys_alloc backend sz r1 r2 = 0).
    { unfold sys_alloc, aligned_malloc. destruct r1 as [q1|]; [discriminate|].
      destruct r2 as [q2|].
      - destruct (is_host backend); [|reflexivity]. destruct (sz <? HUGE); [reflexivity|].
        discriminate.
      - destruct (is_host backend); [|reflexivity]. destruct (sz <? HUGE); [reflexivity|].
        discriminate. }
    rewrite Hp. split; fproj; try apply HI.
    constructor; [|apply HI]. repeat split; cbn; auto.
Qed.

Lemma flat_map_perm {A B} (f : A -> list B) l m : Permutation l m -> Permutation (flat_map f l) (flat_map f m).
Proof.
  intros H. rewrite !flat_map_concat_map. apply concat_perm, Permutation_map, H.
Qed.

Lemma pend_split s d pd : Permutation (pending s) (d :: pd) ->
  Permutation (entries s) (pend_entry d ++ flat_map pend_entry pd ++ settled s).
Proof.
  intros H. unfold entries. rewrite (flat_map_perm _ _ _ H). cbn [flat_map].
  now rewrite app_assoc.
Qed.

Lemma step_commit s n : Inv s -> step_ok s (ECommit n).
Proof.
  intros HI. unfold step_ok. cbn [a_step].
  destruct (extract n (pending s)) as [[d pd]|] eqn:E; [|split; discriminate].
  apply extract_perm in E. pose proof (pend_split s d pd E) as HP.
  destruct (own_perm _ _ _ HP (inv_nodup _ HI) (inv_good _ HI)) as [Hn Hg].
  pose proof (inv_pend _ HI) as Hpo. eapply Permutation_Forall in Hpo; [|exact E].
  inversion Hpo as [|? ? (P1 & P2 & P3 & P4) Hpo']; subst.
  cbv zeta. unfold pend_entry in HP, Hn, Hg at 1.
  destruct (pd_ptr d =? 0) eqn:E0.
  - split; [discriminate|]. intros s' o [= <- <-]. cbn [app] in *.
    split; fproj; auto; try apply HI.
    intros b Hb. unfold settled; fproj; fold (settled s).
    cbn [failed_sum fold_right fst snd].
    destruct (N.eq_dec b (pd_backend d)) as [->|Hne].
    + rewrite fupd_same, (inv_alloc _ HI) by auto. rewrite u64_add_l, N.eqb_refl. f_equal.
      fold (failed_sum (pd_backend d) (failed s)). lia.
    + rewrite fupd_other by auto. destruct (N.eqb_spec (pd_backend d) b); [congruence|].
      rewrite (inv_alloc _ HI) by auto. reflexivity.
  - split; [discriminate|]. intros s' o [= <- <-]. cbn [app] in *.
    assert (Hnp : ~ In (pd_ptr d) (map fst (used s))).
    { cbn [map snd] in Hn. inversion Hn as [|? ? Hni _]; subst. intros Hin. apply Hni.
      unfold settled. rewrite !map_app, !in_app_iff. right; left. now apply In_used_swap. }
    unfold emplace. rewrite lookup_None by auto.
    assert (HP2 : Permutation ((pd_info d, pd_ptr d) :: flat_map pend_entry pd ++ settled s)
       (flat_map pend_entry pd ++ (pd_info d, pd_ptr d) :: settled s)) by apply Permutation_middle.
    destruct (own_perm _ _ _ HP2 Hn Hg) as [Hn2 Hg2].
    split; fproj; auto; try apply HI.
    + intros b. cbn [map snd sum_b]. rewrite P2, P3.
      destruct (N.eq_dec b (pd_backend d)) as [->|Hne].
      * rewrite fupd_same, N.eqb_refl, (inv_usage _ HI), u64_add_l. f_equal. lia.
      * rewrite fupd_other by auto. destruct (N.eqb_spec (pd_backend d) b); [congruence|].
        rewrite (inv_usage _ HI). f_equal.
    + intros b Hb. rewrite !settled_sum. fproj. cbn [map snd sum_b]. rewrite P2, P3.
      destruct (N.eq_dec b (pd_backend d)) as [->|Hne].
      * rewrite fupd_same, N.eqb_refl, (inv_alloc _ HI), u64_add_l by auto.
        rewrite settled_sum. f_equal. lia.
      * rewrite fupd_other by auto. destruct (N.eqb_spec (pd_backend d) b); [congruence|].
        rewrite (inv_alloc _ HI) by auto. rewrite settled_sum. f_equal.
Qed.

Lemma good_size o i p : good o (i, p) -> info_size i < 2 ^ 53.
Proof.
  intros (H & _). cbn in H. unfold info_size. rewrite N.shiftr_div_pow2.
  change (2 ^ 64) with 18446744073709551616 in H.
  change (2 ^ 11) with 2048. change (2 ^ 53) with 9007199254740992. lia.
Qed.

Lemma info_backend_lt i : info_backend i < 4.
Proof.
  unfold info_backend. change 3 with (N.ones 2). rewrite N.land_ones.
  change (2 ^ 2) with 4. lia.
Qed.

Lemma step_free s ptr ts tid : Inv s -> step_ok s (EFree ptr ts tid).
Proof.
  intros HI. unfold step_ok. cbn [a_step].
  destruct (N.eqb_spec ptr 0) as [->|Hz].
  { split; [discriminate|]. now intros s' o [= <- <-]. }
  destruct (lookup ptr (used s)) as [i|] eqn:E.
  2:{ split; [discriminate|]. now intros s' o [= <- <-]. }
  cbv zeta. apply lookup_perm in E.
  set (us := erase ptr (used s)) in *.
  assert (HP : Permutation (entries s) ((i, ptr) :: flat_map pend_entry (pending s) ++ map swap us ++ free s ++ map snd (parked s) ++ concat (batches s) ++
      concat (releasing s) ++ leaked s)).
  { unfold entries, settled. rewrite (Permutation_map swap E). cbn [map swap fst snd app].
    symmetry. apply Permutation_middle. }
  destruct (own_perm _ _ _ HP (inv_nodup _ HI) (inv_good _ HI)) as [Hn Hg].
  assert (Hsz : info_size i < 2 ^ 64).
  { inversion Hg as [|? ? Hg1 _]; subst. apply good_size in Hg1. lia. }
  assert (HU : forall b, fupd (usage s) (info_backend i) (sub64 (usage s (info_backend i)) (info_size i)) b
                 = u64 (sum_b b (map snd us))).
  { intros b. pose proof (sum_b_perm b _ _ (Permutation_map snd E)) as HS.
    cbn [map snd sum_b] in HS. destruct (N.eq_dec b (info_backend i)) as [->|Hne].
    - rewrite fupd_same, (inv_usage _ HI), HS, N.eqb_refl, N.add_comm. now apply sub64_u64.
    - rewrite fupd_other by auto. destruct (N.eqb_spec (info_backend i) b); [congruence|].
      rewrite (inv_usage _ HI), HS. reflexivity. }
  assert (HS : forall b, sum_b b (map snd (used s)) =
     (if info_backend i =? b then info_size i else 0) + sum_b b (map snd us)).
  { intros b. exact (sum_b_perm b _ _ (Permutation_map snd E)). }
  destruct (info_shared i && negb (ts && negb (info_backend i =? B_None))).
  { split; [discriminate|]. intros s' o [= <- <-].
    match type of HP with Permutation _ ?r => assert (HP2 : Permutation r
     (flat_map pend_entry (pending s) ++ map swap us ++ free s ++ map snd (parked s) ++ concat (batches s) ++
      concat (releasing s) ++ (i, ptr) :: leaked s)) end.
    { rewrite <- !Permutation_middle. reflexivity. }
    destruct (own_perm _ _ _ HP2 Hn Hg) as [Hn2 Hg2].
    split; fproj; auto; try apply HI.
    intros b Hb. rewrite (inv_alloc _ HI b Hb), !settled_sum. fproj. rewrite HS.
    cbn [map fst snd sum_b]. f_equal. lia. }
  destruct ((info_backend i =? B_None) || _).
  { split; [discriminate|]. intros s' o [= <- <-].
    match type of HP with Permutation _ ?r => assert (HP2 : Permutation r
     (flat_map pend_entry (pending s) ++ map swap us ++ ((i, ptr) :: free s) ++ map snd (parked s) ++ concat (batches s) ++
      concat (releasing s) ++ leaked s)) end.
    { cbn [app]. rewrite <- !Permutation_middle. reflexivity. }
    destruct (own_perm _ _ _ HP2 Hn Hg) as [Hn2 Hg2].
    split; fproj; auto; try apply HI.
    intros b Hb. rewrite (inv_alloc _ HI b Hb), !settled_sum. fproj. rewrite HS.
    cbn [map fst snd sum_b]. f_equal. lia. }
  split; [discriminate|]. intros s' o [= <- <-].
  match type of HP with Permutation _ ?r => assert (HP2 : Permutation r
     (flat_map pend_entry (pending s) ++ map swap us ++ free s ++ map snd ((tid, (i, ptr)) :: parked s) ++ concat (batches s) ++
      concat (releasing s) ++ leaked s)) end.
  { cbn [app map snd]. rewrite <- !Permutation_middle. reflexivity. }
  destruct (own_perm _ _ _ HP2 Hn Hg) as [Hn2 Hg2].
  split; fproj; auto; try apply HI.
  intros b Hb. rewrite (inv_alloc _ HI b Hb), !settled_sum. fproj. rewrite HS.
  cbn [map fst snd sum_b]. f_equal. lia.
Qed.

(** Events that only move entries between the containers. *)
Lemma step_shuffle s s' :
  Inv s -> used s' = used s -> pending s' = pending s -> trimmed s' = trimmed s ->
  usage s' = usage s -> (forall b, b < 4 -> allocated s' b = allocated s b) -> os s' = os s ->
  failed s' = failed s ->
  Permutation (settled s) (settled s') -> Inv s'.
Proof.
  intros HI H1 H2 H3 H4 H5 H6 H7 HP.
  assert (HP2 : Permutation (entries s) (entries s')).
  { unfold entries. rewrite H2. now apply Permutation_app_head. }
  destruct (own_perm _ _ _ HP2 (inv_nodup _ HI) (inv_good _ HI)) as [Hn2 Hg2].
  split; auto.
  - now rewrite H6.
  - rewrite H6. apply HI.
  - rewrite H2. apply HI.
  - rewrite H1, H4. apply HI.
  - intros b Hb. rewrite H5, H3, H7 by auto. rewrite (inv_alloc _ HI b Hb).
    now rewrite (sum_b_perm b _ _ (Permutation_map fst HP)).
Qed.

Lemma step_take s tid : Inv s -> step_ok s (ETake tid).
Proof.
  intros HI. split; [discriminate|]. intros s' o [= <- <-].
  eapply step_shuffle; eauto. unfold settled; fproj.
  do 2 apply Permutation_app_head.
  rewrite (Permutation_map snd (filter_split_perm (fun e => fst e =? tid) (parked s))).
  rewrite map_app. cbn [concat]. rewrite <- !app_assoc.
  rewrite !app_assoc. do 3 apply Permutation_app_tail. apply Permutation_app_comm.
Qed.

Lemma step_release s n : Inv s -> step_ok s (ERelease n).
Proof.
  intros HI. unfold step_ok. cbn [a_step].
  destruct (extract n (batches s)) as [[b bs]|] eqn:E; [|split; discriminate].
  split; [discriminate|]. intros s' o [= <- <-].
  apply extract_perm, concat_perm in E. cbn [concat] in E.
  eapply step_shuffle; eauto. unfold settled; fproj.
  apply Permutation_app_head. rewrite E. rewrite <- (Permutation_rev b).
  rewrite !app_assoc. do 3 apply Permutation_app_tail.
  rewrite Permutation_app_comm. now rewrite !app_assoc.
Qed.

Lemma step_flush s : Inv s -> step_ok s EFlush.
Proof.
  intros HI. split; [discriminate|]. intros s' o [= <- <-].
  eapply step_shuffle; eauto. unfold settled; fproj.
  apply Permutation_app_head. cbn [concat app]. rewrite !app_assoc.
  do 2 apply Permutation_app_tail. rewrite <- !app_assoc. rewrite Permutation_app_comm.
  now rewrite <- app_assoc.
Qed.

Lemma step_clear s : Inv s -> step_ok s EClearStats.
Proof.
  intros HI. split; [discriminate|]. intros s' o [= <- <-].
  eapply step_shuffle; eauto.
Qed.

Lemma step_move s ptr dst : Inv s -> ev_ok (EMove ptr dst) = true -> step_ok s (EMove ptr dst).
Proof.
  intros HI Hok. cbn [ev_ok] in Hok. apply N.ltb_lt in Hok. unfold step_ok. cbn [a_step].
  destruct (N.eqb_spec ptr 0) as [->|Hz].
  { split; [discriminate|]. now intros s' o [= <- <-]. }
  destruct (lookup ptr (used s)) as [i|] eqn:E.
  2:{ split; [discriminate|]. now intros s' o [= <- <-]. }
  cbv zeta. apply lookup_perm in E.
  destruct (is_host (info_backend i)) eqn:Hh1; [|split; discriminate].
  destruct (is_host dst) eqn:Hh2; [|split; discriminate]. cbn [andb].
  split; [discriminate|]. intros s' o [= <- <-].
  set (us := erase ptr (used s)) in *.
  set (i' := info_encode (info_size i) dst false 0).
  assert (HP : Permutation (entries s) ((i, ptr) :: flat_map pend_entry (pending s) ++ map swap us ++ free s ++ map snd (parked s) ++ concat (batches s) ++
      concat (releasing s) ++ leaked s)).
  { unfold entries, settled. rewrite (Permutation_map swap E). cbn [map swap fst snd app].
    symmetry. apply Permutation_middle. }
  destruct (own_perm _ _ _ HP (inv_nodup _ HI) (inv_good _ HI)) as [Hn Hg].
  inversion Hg as [|? ? Hg1 Hg2]; subst.
  pose proof (good_size _ _ _ Hg1) as Hsz. pose proof (info_backend_lt i) as Hbl.
  destruct (info_decode_encode (info_size i) dst false 0 Hsz Hok ltac:(lia)) as (D1 & D2 & D3 & D4 & D5).
  fold i' in D1, D2, D3, D4, D5.
  assert (Hg1' : good (os s) (i', ptr)).
  { destruct Hg1 as (A & B & C). cbn [fst snd] in *. split; [exact D5|]. split; [exact B|].
    cbn [fst snd]. rewrite D1. unfold kind_of in *. rewrite D2, Hh2. now rewrite Hh1 in C. }
  assert (HP2 : Permutation ((i', ptr) :: flat_map pend_entry (pending s) ++ map swap us ++ free s ++ map snd (parked s) ++ concat (batches s) ++
      concat (releasing s) ++ leaked s)
     (flat_map pend_entry (pending s) ++ map swap ((ptr, i') :: us) ++ free s ++ map snd (parked s) ++ concat (batches s) ++
      concat (releasing s) ++ leaked s)).
  { cbn [map swap app fst snd]. apply Permutation_middle. }
  assert (HS : forall b, sum_b b (map snd (used s)) =
     (if info_backend i =? b then info_size i else 0) + sum_b b (map snd us)).
  { intros b. exact (sum_b_perm b _ _ (Permutation_map snd E)). }
  eapply own_perm in HP2 as [Hn2 Hg2']; [|exact Hn|constructor; eauto].
  split; fproj; auto; try apply HI.
  - intros b. cbn [map snd sum_b]. rewrite D1, D2.
    assert (H1 : fupd (usage s) (info_backend i) (sub64 (usage s (info_backend i)) (info_size i)) b
                 = u64 (sum_b b (map snd us))).
    { destruct (N.eq_dec b (info_backend i)) as [->|Hne].
      - rewrite fupd_same, (inv_usage _ HI), HS, N.eqb_refl, N.add_comm. apply sub64_u64. lia.
      - rewrite fupd_other by auto. destruct (N.eqb_spec (info_backend i) b); [congruence|].
        rewrite (inv_usage _ HI), HS, (proj2 (N.eqb_neq _ _)) by auto. reflexivity. }
    destruct (N.eq_dec b dst) as [->|Hne].
    + rewrite fupd_same, H1, N.eqb_refl, u64_add_l. f_equal. lia.
    + rewrite fupd_other by auto. destruct (N.eqb_spec dst b); [congruence|]. now rewrite H1.
  - intros b Hb.
    set (T := sum_b b (map fst (free s)) + sum_b b (map fst (map snd (parked s)))
       + sum_b b (map fst (concat (batches s))) + sum_b b (map fst (concat (releasing s)))
       + sum_b b (map fst (leaked s)) + sum_b b (map fst (concat (trimmed s))) + failed_sum b (failed s)).
    assert (H1 : fupd (allocated s) (info_backend i) (sub64 (allocated s (info_backend i)) (info_size i)) b
                 = u64 (sum_b b (map snd us) + T)).
    { destruct (N.eq_dec b (info_backend i)) as [->|Hne].
      - rewrite fupd_same, (inv_alloc _ HI), settled_sum, HS, N.eqb_refl by auto.
        match goal with |- sub64 (u64 ?x) _ = _ =>
          replace x with ((sum_b (info_backend i) (map snd us) + T) + info_size i) by (unfold T; lia) end.
        apply sub64_u64. lia.
      - rewrite fupd_other by auto.
        rewrite (inv_alloc _ HI), settled_sum, HS, (proj2 (N.eqb_neq _ _)) by auto.
        f_equal. unfold T. lia. }
    rewrite settled_sum; fproj. cbn [map snd sum_b]. rewrite D1, D2.
    destruct (N.eq_dec b dst) as [->|Hne].
    + rewrite fupd_same, H1, N.eqb_refl, u64_add_l. f_equal. unfold T. lia.
    + rewrite fupd_other by auto. destruct (N.eqb_spec dst b); [congruence|]. rewrite H1.
      f_equal. unfold T. lia.
Qed.

Lemma NoDup_app_r {A} (l m : list A) : NoDup (l ++ m) -> NoDup m.
Proof. induction l as [|x l IH]; cbn [app]; auto. inversion 1; auto. Qed.

Lemma step_osfree s n : Inv s -> step_ok s (EOsFree n).
Proof.
  intros HI. unfold step_ok. cbn [a_step].
  destruct (extract n (releasing s)) as [[l rl]|] eqn:E; [|split; discriminate].
  apply extract_perm in E. apply concat_perm in E. cbn [concat] in E.
  assert (HP : Permutation (entries s) (l ++ flat_map pend_entry (pending s) ++ map swap (used s) ++ free s ++ map snd (parked s) ++ concat (batches s) ++
      concat rl ++ leaked s)).
  { unfold entries, settled. rewrite E. rewrite !app_assoc. do 2 apply Permutation_app_tail.
    rewrite <- !app_assoc.
    rewrite (Permutation_app_comm l). now rewrite <- !app_assoc. }
  destruct (own_perm _ _ _ HP (inv_nodup _ HI) (inv_good _ HI)) as [Hn Hg].
  destruct (os_remove_all_ok l (os s) _ (inv_os _ HI) Hn Hg) as (o' & Eo & Ho & Hg').
  rewrite Eo. split; [discriminate|]. intros s' o [= <- <-].
  rewrite map_app in Hn. apply NoDup_app_r in Hn.
  split; fproj; auto; try apply HI.
  intros b Hb. rewrite (inv_alloc _ HI b Hb), !settled_sum. fproj.
  rewrite (sum_b_perm b _ _ (Permutation_map fst E)). cbn [concat].
  rewrite !map_app, !sum_b_app. f_equal. lia.
Qed.

Lemma step_flushstats s n : Inv s -> step_ok s (EFlushStats n).
Proof.
  intros HI. unfold step_ok. cbn [a_step].
  destruct (extract n (trimmed s)) as [[l tl]|] eqn:E; [|split; discriminate].
  apply extract_perm in E. apply concat_perm in E. cbn [concat] in E.
  split; [discriminate|]. intros s' o [= <- <-].
  split; fproj; auto; try apply HI.
  intros b Hb. rewrite (proj2 (N.ltb_lt b 4) Hb), (inv_alloc _ HI b Hb), !settled_sum. fproj.
  rewrite (sum_b_perm b _ _ (Permutation_map fst E)).
  rewrite !map_app, !sum_b_app.
  match goal with |- sub64 (u64 ?x) (u64 ?y) = u64 ?z => replace x with (z + y) by lia end.
  apply sub64_u64_u64.
Qed.

Lemma step_inv s e : Inv s -> ev_ok e = true -> step_ok s e.
Proof.
  intros HI He. destruct e.
  - now apply step_reuse.
  - now apply step_osalloc.
  - now apply step_commit.
  - now apply step_free.
  - now apply step_take.
  - now apply step_release.
  - now apply step_move.
  - now apply step_flush.
  - now apply step_osfree.
  - now apply step_flushstats.
  - now apply step_clear.
Qed.

Lemma run_inv es : forall s, Inv s -> forallb ev_ok es = true ->
  a_run s es <> AUB /\ forall s' o, a_run s es = AOk s' o -> Inv s'.
Proof.
  induction es as [|e r IH]; intros s HI Hok; cbn [a_run].
  - split; [discriminate|]. now intros s' o [= <- <-].
  - cbn [forallb] in Hok. apply andb_true_iff in Hok as [H1 H2].
    destruct (step_inv s e HI H1) as [S1 S2].
    destruct (a_step s e) as [s1 o1| |] eqn:E.
    + apply IH; eauto.
    + split; discriminate.
    + contradiction.
Qed.
