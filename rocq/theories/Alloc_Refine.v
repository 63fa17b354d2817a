(** The allocator satisfies the client specification. *)
From Verif Require Import Base Bits Alloc_Model Alloc_Spec Alloc_Proofs.
Local Open Scope N_scope.

Definition R (s : ast) (c : client) : Prop :=
  (forall p, In p (map fst (held c)) <-> In p (map fst (used s))) /\
  NoDup (map fst (held c)) /\
  (forall p m i, In (p, m) (held c) -> In (p, i) (used s) -> m <= info_size i) /\
  asked c = map pd_req (pending s).

Lemma FOP_two o p s k q s' k' : ForallOrdPairs disj o ->
  In (p, s, k) o -> In (q, s', k') o -> p <> q -> p + s <= q \/ q + s' <= p.
Proof.
  induction 1 as [|x l Hx Hl IH]; [intros []|]. intros H1 H2 Hne.
  rewrite Forall_forall in Hx. destruct H1 as [->|H1]; destruct H2 as [E|H2].
  - congruence.
  - specialize (Hx _ H2). cbn in Hx. lia.
  - subst x. specialize (Hx _ H1). cbn in Hx. lia.
  - auto.
Qed.

Lemma used_entry s p i : In (p, i) (used s) -> In (i, p) (entries s).
Proof. intros H. unfold entries. apply in_or_app. right. now apply in_settled_used. Qed.

(** Entries own disjoint memory. *)
Lemma entries_apart s i p j q : Inv s -> In (i, p) (entries s) -> In (j, q) (entries s) -> p <> q ->
  p + info_size i <= q \/ q + info_size j <= p.
Proof.
  intros HI H1 H2 Hne. pose proof (inv_good _ HI) as Hg. rewrite Forall_forall in Hg.
  destruct (Hg _ H1) as (_ & _ & A). destruct (Hg _ H2) as (_ & _ & B). cbn in A, B.
  exact (FOP_two _ _ _ _ _ _ _ (inv_os _ HI) A B Hne).
Qed.

Lemma NoDup_fst_inj {A B} (l : list (A * B)) p x y :
  NoDup (map fst l) -> In (p, x) l -> In (p, y) l -> x = y.
Proof.
  induction l as [|[q z] l IH]; [intros _ []|]. cbn [map fst]. inversion 1 as [|? ? Hni Hn]; subst.
  intros [E1|H1] [E2|H2].
  - congruence.
  - exfalso. apply Hni. injection E1 as -> ->. change p with (fst (p, y)). now apply in_map.
  - exfalso. apply Hni. injection E2 as -> ->. change p with (fst (p, x)). now apply in_map.
  - auto.
Qed.

Lemma used_nodup s : Inv s -> NoDup (map fst (used s)).
Proof.
  intros HI. pose proof (inv_nodup _ HI) as Hn. unfold entries, settled in Hn.
  rewrite !map_app in Hn. apply NoDup_app_r in Hn.
  rewrite (map_map swap snd) in Hn. change (fun x => snd (swap x)) with (@fst N N) in Hn.
  revert Hn. generalize (map fst (used s)). intros l. match goal with |- NoDup (_ ++ ?m) -> _ => generalize m end.
  intros m. clear. induction l as [|x l IH]; [constructor|]. inversion 1 as [|? ? A B]; subst.
  constructor; [|auto]. intros H'. apply A. apply in_or_app. now left.
Qed.

Lemma map_fst_In {B} p (l : list (N * B)) : In p (map fst l) -> exists x, In (p, x) l.
Proof. intros H. apply in_map_iff in H as ([q x] & E & H). cbn in E. subst. eauto. Qed.

Lemma In_map_fst {B} p x (l : list (N * B)) : In (p, x) l -> In p (map fst l).
Proof. intros H. change p with (fst (p, x)). now apply in_map. Qed.

(** A pointer newly entering [used]. *)
Lemma grant_ok s s' c p i size :
  Inv s' -> R s c -> used s' = (p, i) :: used s -> ~ In p (map fst (used s)) -> size <= info_size i ->
  (forall q m, In (q, m) (held c) -> p <> q /\ apart p size q m) /\
  (forall q, In q (map fst ((p, size) :: held c)) <-> In q (map fst (used s'))) /\
  NoDup (map fst ((p, size) :: held c)) /\
  (forall q m j, In (q, m) ((p, size) :: held c) -> In (q, j) (used s') -> m <= info_size j).
Proof.
  intros HI (R1 & R2 & R3 & R4) E Hnp Hsz. split; [|split; [|split]].
  - intros q m Hin.
    assert (Hq : In q (map fst (used s))) by (apply R1; now apply In_map_fst in Hin).
    assert (Hne : p <> q) by (intros ->; contradiction). split; [exact Hne|].
    apply map_fst_In in Hq as [j Hj]. specialize (R3 _ _ _ Hin Hj).
    assert (H1 : In (i, p) (entries s')) by (apply used_entry; rewrite E; now left).
    assert (H2 : In (j, q) (entries s')) by (apply used_entry; rewrite E; now right).
    destruct (entries_apart s' i p j q HI H1 H2 Hne); unfold apart; lia.
  - intros q. rewrite E. cbn [map fst In]. now rewrite R1.
  - cbn [map fst]. constructor; [|auto]. now rewrite R1.
  - intros q m j. rewrite E. intros [H1|H1] [H2|H2].
    + congruence.
    + injection H1 as -> ->. exfalso. apply Hnp. now apply In_map_fst in H2.
    + injection H2 as -> ->. exfalso. apply Hnp. apply R1. now apply In_map_fst in H1.
    + eauto.
Qed.

Lemma in_erase p q i l : In (q, i) (erase p l) -> In (q, i) l.
Proof.
  induction l as [|[r j] l IH]; cbn [erase]; [tauto|].
  destruct (r =? p); [now right|]. intros [H|H]; [now left|right; auto].
Qed.

Lemma erase_fst p l : NoDup (map fst l) -> In p (map fst l) ->
  forall q, In q (map fst (erase p l)) <-> q <> p /\ In q (map fst l).
Proof.
  intros Hn Hp q. apply map_fst_In in Hp as [i Hi].
  assert (HL : exists i, lookup p l = Some i).
  { clear Hn. induction l as [|[r j] l IH]; [destruct Hi|]. cbn [lookup].
    destruct (N.eqb_spec r p); [eauto|]. destruct Hi as [[= -> ->]|Hi]; [congruence|auto]. }
  destruct HL as [k HL]. apply lookup_perm in HL. apply (Permutation_map fst) in HL. cbn [map fst] in HL.
  assert (Hn2 : NoDup (p :: map fst (erase p l))) by (eapply Permutation_NoDup; eauto).
  inversion Hn2 as [|? ? Hni _]; subst. split.
  - intros H. split; [intros ->; contradiction|].
    eapply Permutation_in; [apply Permutation_sym, HL|now right].
  - intros [Hne H]. eapply Permutation_in in H; [|exact HL]. destruct H; [congruence|auto].
Qed.

Lemma extract_nth {A} n (l : list A) x r : extract n l = Some (x, r) ->
  nth_error l n = Some x /\ r = drop_nth n l.
Proof.
  revert n x r; induction l as [|y l IH]; intros n x r; [destruct n; discriminate|].
  destruct n as [|n]; cbn [extract].
  - intros [= -> ->]. split; reflexivity.
  - destruct (extract n l) as [[x' r']|] eqn:E; cbn [bind fst snd]; [|discriminate].
    intros [= -> <-]. destruct (IH _ _ _ E) as [H1 ->]. split; [exact H1|reflexivity].
Qed.

Lemma map_drop_nth {A B} (f : A -> B) n l : map f (drop_nth n l) = drop_nth n (map f l).
Proof. unfold drop_nth. now rewrite map_app, firstn_map, skipn_map. Qed.

Lemma R_same s s' c : R s c -> used s' = used s -> pending s' = pending s -> R s' c.
Proof. intros (A & B & C & D) E1 E2. unfold R. rewrite E1, E2. auto. Qed.

Lemma step_accept s c e s' o :
  Inv s -> ev_ok e = true -> R s c -> a_step s e = AOk s' o ->
  exists c', accept c e o c' /\ R s' c'.
Proof.
  intros HI Hok HR Hst. pose proof (step_inv s e HI Hok) as [_ HS]. specialize (HS _ _ Hst).
  destruct e; cbn [a_step] in Hst.
  - (* EReuse *)
    cbn [ev_ok] in Hok. rewrite !andb_true_iff in Hok. destruct Hok as [[[[H1 H2] H3] H4] H5].
    apply N.ltb_lt in H1, H4, H5. apply N.leb_le in H2, H3.
    destruct (N.eqb_spec size 0); [lia|]. cbv zeta in Hst.
    destruct (malloc_info_ok vw backend size shared device ltac:(lia) H3 H4 H5) as (A1 & A2 & A3 & A4).
    destruct (pop_free _ (free s)) as [[p fr]|] eqn:E; [|discriminate].
    injection Hst as <- <-.
    apply pop_free_perm in E.
    set (ai := malloc_info vw backend size shared device) in *.
    assert (HP : Permutation (entries s)
       ((ai, p) :: flat_map pend_entry (pending s) ++ map swap (used s) ++ fr ++ map snd (parked s) ++ concat (batches s) ++
        concat (releasing s) ++ leaked s)).
    { unfold entries, settled. rewrite E. cbn [app]. rewrite <- !Permutation_middle. reflexivity. }
    assert (Hnp : ~ In p (map fst (used s))).
    { eapply used_ptr_not_In; [exact HI|exact HP|].
      eexists _, _; split; [reflexivity|]. intros q Hq.
      rewrite !map_app, !in_app_iff. right; left. now apply In_used_swap. }
    assert (Hpz : p <> 0).
    { pose proof (inv_good _ HI) as Hg. eapply Permutation_Forall in Hg; [|exact HP].
      inversion Hg as [|? ? (_ & Hz & _) _]. exact Hz. }
    unfold emplace in HS |- *. rewrite lookup_None in HS |- * by auto.
    edestruct (grant_ok s _ c p ai size HS HR) as (G1 & G2 & G3 & G4); [reflexivity|exact Hnp|lia|].
    exists (mkC ((p, size) :: held c) (asked c)). split.
    + apply acc_reuse; auto.
    + split; [exact G2|]. split; [exact G3|]. split; [exact G4|]. apply HR.
  - (* EOsAlloc *)
    cbv zeta in Hst.
    assert (Hgen : o = AUnit /\ used s' = used s /\ map pd_req (pending s') = size :: map pd_req (pending s)).
    { destruct (match r1, r2 with Some q, _ => Some q | None, Some q => if is_host backend && negb (malloc_size vw backend size <? HUGE) then Some q else None | _, _ => None end) as [q|].
      - destruct (os_fresh _ _ _); [|discriminate]. injection Hst as <- <-. auto.
      - injection Hst as <- <-. auto. }
    destruct Hgen as (-> & E1 & E2). exists (mkC (held c) (size :: asked c)). split; [constructor|].
    destruct HR as (R1 & R2 & R3 & R4). unfold R. cbn [held asked]. rewrite E1, E2, R4. auto.
  - (* ECommit *)
    destruct (extract n (pending s)) as [[d pd]|] eqn:E; [|discriminate].
    pose proof (extract_nth _ _ _ _ E) as [N1 N2]. apply extract_perm in E.
    pose proof (pend_split s d pd E) as HP.
    pose proof (inv_pend _ HI) as Hpo. eapply Permutation_Forall in Hpo; [|exact E].
    inversion Hpo as [|? ? (P1 & P2 & P3 & P4) Hpo']; subst.
    pose proof HR as (R1 & R2 & R3 & R4).
    assert (Hn : nth_error (asked c) n = Some (pd_req d)).
    { rewrite R4. now apply map_nth_error. }
    assert (Hd : drop_nth n (asked c) = map pd_req (drop_nth n (pending s))).
    { rewrite R4. symmetry. apply map_drop_nth. }
    cbv zeta in Hst. unfold pend_entry in HP at 1.
    destruct (N.eqb_spec (pd_ptr d) 0) as [E0|E0].
    + injection Hst as <- <-. eexists. split; [eapply acc_deny; eauto|].
      split; [exact R1|]. split; [exact R2|]. split; [exact R3|]. exact Hd.
    + injection Hst as <- <-. cbn [app] in HP.
      destruct (own_perm _ _ _ HP (inv_nodup _ HI) (inv_good _ HI)) as [Hnn _].
      assert (Hnp : ~ In (pd_ptr d) (map fst (used s))).
      { cbn [map snd] in Hnn. inversion Hnn as [|? ? Hni _]; subst. intros Hin. apply Hni.
        unfold settled. rewrite !map_app, !in_app_iff. right; left. now apply In_used_swap. }
      unfold emplace in HS |- *. rewrite lookup_None in HS |- * by auto.
      edestruct (grant_ok s _ c (pd_ptr d) (pd_info d) (pd_req d) HS HR) as (G1 & G2 & G3 & G4);
        [reflexivity|exact Hnp|lia|].
      eexists. split; [eapply acc_grant; eauto|].
      split; [exact G2|]. split; [exact G3|]. split; [exact G4|]. exact Hd.
  - (* EFree *)
    destruct (N.eqb_spec ptr 0) as [->|Hz].
    { injection Hst as <- <-. exists c. split; [constructor|exact HR]. }
    pose proof HR as (R1 & R2 & R3 & R4). pose proof (used_nodup s HI) as Hun.
    destruct (lookup ptr (used s)) as [i|] eqn:E.
    + assert (Hu : o = AUnit /\ used s' = erase ptr (used s) /\ pending s' = pending s).
      { cbv zeta in Hst.
        destruct (info_shared i && _); [injection Hst as <- <-; auto|].
        destruct ((info_backend i =? B_None) || _); injection Hst as <- <-; auto. }
      destruct Hu as (-> & Eu & Ep).
      assert (Hin : In ptr (map fst (used s))) by (apply lookup_In in E; now apply In_map_fst in E).
      pose proof (proj2 (R1 ptr) Hin) as Hh. apply map_fst_In in Hh as [m Hm].
      apply in_split in Hm as (h1 & h2 & Hm).
      exists (mkC (h1 ++ h2) (asked c)). split; [eapply acc_free; eauto|].
      rewrite Hm, map_app in R2. cbn [map fst] in R2.
      pose proof (NoDup_remove_1 _ _ _ R2) as N1. pose proof (NoDup_remove_2 _ _ _ R2) as N2.
      rewrite <- map_app in N1, N2.
      split; [|split; [|split]]; cbn [held asked].
      * intros q. rewrite Eu, erase_fst by auto. rewrite <- R1, Hm.
        rewrite map_app in N2 |- *. rewrite map_app. cbn [map fst].
        rewrite !in_app_iff in *. cbn [In]. split.
        -- intros Hq. split; [|tauto]. intros ->. tauto.
        -- intros [Hne [Hq|[Hq|Hq]]]; auto. congruence.
      * exact N1.
      * intros q m' j Hq Hj. rewrite Eu in Hj. apply in_erase in Hj.
        apply (R3 q m' j); [|exact Hj]. rewrite Hm. apply in_app_or in Hq. apply in_or_app.
        destruct Hq; [now left|right; now right].
      * now rewrite Ep.
    + injection Hst as <- <-. exists c. split; [|exact HR]. apply acc_free_unknown; auto.
      rewrite R1. intros Hin. apply map_fst_In in Hin as [i Hi].
      clear - E Hi. induction (used s) as [|[q j] l IH]; [destruct Hi|]. cbn [lookup] in E.
      destruct (N.eqb_spec q ptr); [discriminate|]. destruct Hi as [[= -> ->]|Hi]; [congruence|auto].
  - injection Hst as <- <-. exists c. split; [now constructor|]. eapply R_same; eauto.
  - destruct (extract n (batches s)) as [[b bs]|]; [|discriminate].
    injection Hst as <- <-. exists c. split; [now constructor|]. eapply R_same; eauto.
  - (* EMove *)
    destruct (N.eqb_spec ptr 0) as [->|Hz].
    { injection Hst as <- <-. exists c. split; [constructor|exact HR]. }
    pose proof HR as (R1 & R2 & R3 & R4). pose proof (used_nodup s HI) as Hun.
    destruct (lookup ptr (used s)) as [i|] eqn:E.
    + cbv zeta in Hst. destruct (is_host (info_backend i) && is_host dst); [|discriminate].
      injection Hst as <- <-.
      pose proof (lookup_In _ _ _ E) as HinE.
      assert (Hin : In ptr (map fst (used s))) by (now apply In_map_fst in HinE).
      exists c. split; [apply acc_move; [now apply R1|auto]|].
      assert (Hsz : info_size i < 2 ^ 53).
      { pose proof (inv_good _ HI) as Hg. rewrite Forall_forall in Hg.
        eapply good_size. apply Hg. apply used_entry. exact HinE. }
      cbn [ev_ok] in Hok. apply N.ltb_lt in Hok.
      destruct (info_decode_encode (info_size i) dst false 0 Hsz Hok ltac:(lia)) as (D1 & _).
      split; [|split; [|split]]; cbn [used pending]; auto.
      * intros q. cbn [map fst In]. rewrite erase_fst, R1 by auto. split.
        -- intros Hq. destruct (N.eq_dec ptr q); [now left|right; auto].
        -- intros [->|[_ Hq]]; auto.
      * intros q m j Hq [Hj|Hj].
        -- injection Hj as <- <-. rewrite D1. eauto.
        -- apply in_erase in Hj. eauto.
    + injection Hst as <- <-. exists c. split; [|exact HR]. apply acc_move_unknown; auto.
      rewrite R1. intros Hin. apply map_fst_In in Hin as [i Hi].
      clear - E Hi. induction (used s) as [|[q j] l IH]; [destruct Hi|]. cbn [lookup] in E.
      destruct (N.eqb_spec q ptr); [discriminate|]. destruct Hi as [[= -> ->]|Hi]; [congruence|auto].
  - injection Hst as <- <-. exists c. split; [now constructor|]. eapply R_same; eauto.
  - destruct (extract n (releasing s)) as [[l rl]|]; [|discriminate].
    destruct (os_remove_all l (os s)) as [o'|]; [|discriminate].
    injection Hst as <- <-. exists c. split; [now constructor|]. eapply R_same; eauto.
  - destruct (extract n (trimmed s)) as [[l tl]|]; [|discriminate].
    injection Hst as <- <-. exists c. split; [now constructor|]. eapply R_same; eauto.
  - injection Hst as <- <-. exists c. split; [now constructor|]. eapply R_same; eauto.
Qed.

Lemma R_init : R a_init (mkC [] []).
Proof. split; [reflexivity|]. split; [constructor|]. split; [intros ? ? ? []|reflexivity]. Qed.

Lemma trace_accept es : forall s c, Inv s -> R s c -> forallb ev_ok es = true ->
  exists c', accepts c (a_trace s es) c'.
Proof.
  induction es as [|e r IH]; intros s c HI HR Hok; cbn [a_trace].
  - eexists. constructor.
  - cbn [forallb] in Hok. apply andb_true_iff in Hok as [H1 H2].
    destruct (a_step s e) as [s' o| |] eqn:E; try (eexists; constructor).
    destruct (step_accept s c e s' o HI H1 HR E) as (c1 & A1 & A2).
    pose proof (step_inv s e HI H1) as [_ HS].
    destruct (IH s' c1 (HS _ _ E) A2 H2) as (c2 & A3).
    eexists. econstructor; eauto.
Qed.

(** ** Watermark *)

Definition total (s : ast) (b : N) : N :=
  sum_b b (map fst (settled s)) + sum_b b (map fst (concat (trimmed s))) + failed_sum b (failed s).

Lemma wm_step s e s' o : Inv s -> ev_ok e = true -> a_step s e = AOk s' o ->
  match e with EMove _ _ => False | _ => True end ->
  (forall b, b < 4 -> total s b < 2 ^ 64) -> (forall b, b < 4 -> allocated s b <= watermark s b) ->
  forall b, b < 4 -> allocated s' b <= watermark s' b.
Proof.
  intros HI Hok Hst Hm Ht Hw b Hb. destruct e; cbn [a_step] in Hst; cbv zeta in Hst.
  - destruct (size =? 0); [injection Hst as <- <-; auto|].
    destruct (pop_free _ _) as [[p fr]|]; [injection Hst as <- <-; cbn; auto|discriminate].
  - destruct (match r1, r2 with Some q, _ => Some q | None, Some q => if is_host backend && negb (malloc_size vw backend size <? HUGE) then Some q else None | _, _ => None end) as [q|].
    + destruct (os_fresh _ _ _); [|discriminate]. injection Hst as <- <-. cbn; auto.
    + injection Hst as <- <-. cbn; auto.
  - destruct (extract n (pending s)) as [[d pd]|]; [|discriminate].
    destruct (pd_ptr d =? 0); injection Hst as <- <-; fproj;
      (destruct (N.eq_dec b (pd_backend d)) as [->|Hne];
       [rewrite !fupd_same; apply N.le_max_l|rewrite !fupd_other by auto; auto]).
  - destruct (ptr =? 0); [injection Hst as <- <-; auto|].
    destruct (lookup ptr (used s)) as [i|]; [|injection Hst as <- <-; auto].
    destruct (info_shared i && _); [injection Hst as <- <-; cbn; auto|].
    destruct ((info_backend i =? B_None) || _); injection Hst as <- <-; cbn; auto.
  - injection Hst as <- <-; cbn; auto.
  - destruct (extract n (batches s)) as [[? bs]|]; [|discriminate]. injection Hst as <- <-; cbn; auto.
  - contradiction.
  - injection Hst as <- <-; cbn; auto.
  - destruct (extract n (releasing s)) as [[l rl]|]; [|discriminate].
    destruct (os_remove_all l (os s)) as [o'|]; [|discriminate].
    injection Hst as <- <-; cbn; auto.
  - destruct (extract n (trimmed s)) as [[l tl]|] eqn:E; [|discriminate].
    apply extract_perm in E. apply concat_perm in E. cbn [concat] in E.
    injection Hst as <- <-. fproj. rewrite (proj2 (N.ltb_lt b 4) Hb).
    specialize (Ht b Hb). specialize (Hw b Hb). rewrite (inv_alloc _ HI b Hb) in *.
    fold (total s b) in *. unfold total in *.
    rewrite (sum_b_perm b _ _ (Permutation_map fst E)) in *.
    rewrite !map_app, !sum_b_app in *.
    rewrite u64_small in Hw by lia. rewrite !u64_small by lia. rewrite sub64_ge by lia. lia.
  - injection Hst as <- <-. fproj. rewrite (proj2 (N.ltb_lt b 4) Hb). lia.
Qed.

(** Every state of the run satisfies [P]. *)
Fixpoint along (P : ast -> Prop) (s : ast) (es : list aev) : Prop :=
  P s /\ match es with
         | [] => True
         | e :: r => match a_step s e with AOk s' _ => along P s' r | _ => True end
         end.

Lemma wm_run es : forall s s' o, Inv s -> forallb ev_ok es = true ->
  forallb (fun e => match e with EMove _ _ => false | _ => true end) es = true ->
  along (fun s => forall b, b < 4 -> total s b < 2 ^ 64) s es ->
  (forall b, b < 4 -> allocated s b <= watermark s b) ->
  a_run s es = AOk s' o -> forall b, b < 4 -> allocated s' b <= watermark s' b.
Proof.
  induction es as [|e r IH]; intros s s' o HI Hok Hm Hal Hw Hr; cbn [a_run along forallb] in *.
  - injection Hr as <- <-. auto.
  - apply andb_true_iff in Hok as [H1 H2]. apply andb_true_iff in Hm as [M1 M2].
    destruct Hal as [T Hal].
    destruct (a_step s e) as [s1 o1| |] eqn:E; try discriminate.
    pose proof (step_inv s e HI H1) as [_ HS].
    eapply (IH s1); eauto. eapply wm_step; eauto. now destruct e.
Qed.
