(** Every interleaving of the workers of a launch computes what the variables mean. *)
From Verif Require Import Base Asm_Model Asm_Spec Asm_Mem Asm_Place Asm_Chunk.
Local Open Scope N_scope.

Section MACHINE.
Variable sem : N -> N -> list N -> mem -> option N.
Variable b : backend.
Variable size cb : N.
Variable g : list var.
Variable m0 : mem.
Variable w : N.
Variable k : kernel.

Let T := generate b w k.
Let lns := lanes b size w.
Let n := length g.

Hypothesis WF : well_formed b size g.
Hypothesis BU : built b w size cb g k.
Hypothesis BO : buffers_ok b m0 w (k_bufs k).
Hypothesis IO : inputs_ok sem b size cb g m0 w (k_bufs k).
Hypothesis DE : defined sem b size cb g m0 w.
Hypothesis AL : match b with LLVM => aligned_ok g w | _ => w = 1 end.

Notation good := (good sem b size cb g m0 w k).
Notation grows := (grows sem b size cb g m0 w k).
Notation wrote := (wrote sem b size cb g m0 w k).
Notation reg_inv := (reg_inv sem b size cb g m0 w k).
Notation effect := (effect_of sem b size cb g m0).

Lemma lanes_le : size <= lns /\ lns <= 2 ^ 32.
Proof.
  pose proof (wf_size _ _ _ WF) as SZ. unfold lns, lanes. destruct b; [|lia|lia].
  destruct (al_width _ _ AL) as (e & -> & E).
  assert (P : 2 ^ 32 = 2 ^ (32 - e) * 2 ^ e) by (rewrite <- N.pow_add_r; f_equal; lia).
  assert (NZ : 2 ^ e <> 0) by (apply N.pow_nonzero; lia).
  split.
  - pose proof (N.div_mod (size + 2 ^ e - 1) (2 ^ e) NZ). pose proof (N.mod_lt (size + 2 ^ e - 1) (2 ^ e) NZ). lia.
  - rewrite P. apply N.mul_le_mono_r. apply N.lt_succ_r. apply N.div_lt_upper_bound; [exact NZ|]. lia.
Qed.

Definition valid (e p : N) : Prop :=
  p mod w = 0 /\ p + w <= lns /\ (b = LLVM -> e < 2 ^ 32 /\ (p + w <= e <= size \/ e = size)).

Lemma chunk p e j s : nth_error (k_slots k) j = Some s -> valid e p -> chunk_ok sem b size cb g m0 w k p e j s.
Proof.
  intros H (V1 & V2 & V3). pose proof lanes_le as [_ L].
  assert (WP : 0 < w) by (eapply wpos; eauto).
  assert (BB : b = LLVM \/ b = CUDA \/ b = METAL) by (clear; destruct b; auto).
  destruct BB as [EB|[EB|EB]].
  - destruct (V3 EB). eapply llvm_chunk; eauto.
  - eapply cuda_chunk; eauto. fold lns. lia.
  - eapply metal_chunk; eauto. fold lns. lia.
Qed.

Definition ev (lane : N) (log : list event) := filter (fun e : event => snd (fst e) =? lane) log.

(** The first [j] variables of the iteration at [p] are done. *)
Definition at_stage (p : N) (j : nat) (m : mem) (log : list event) : Prop :=
  (forall lane, p <= lane < p + w -> Forall2 (effect lane) (filter v_side (firstn j g)) (ev lane log)) /\
  (forall v, In v (firstn j g) -> is_output size v -> forall lane, p <= lane < p + w -> wrote v lane m).

Lemma firstn_snoc {A} (l : list A) j x : nth_error l j = Some x -> firstn (S j) l = firstn j l ++ [x].
Proof.
  revert l. induction j as [|j IH]; intros [|y l] H; try discriminate; cbn in *.
  - congruence.
  - f_equal. now apply IH.
Qed.

Lemma firstn_In {A} (l : list A) j x : In x (firstn j l) -> In x l.
Proof. intros H. rewrite <- (firstn_skipn j l). apply in_or_app. now left. Qed.

Lemma stage_other p j s p' j' m m' log log' :
  p + w <= p' \/ p' + w <= p -> p' + w <= lns -> grows m m' ->
  effects_ok sem b size cb g m0 w s p log log' -> nth_error g j = Some (s_var s) ->
  at_stage p' j' m log -> at_stage p' j' m' log'.
Proof.
  intros D L G (e & -> & E) _ [A B]. split.
  - intros lane Q. unfold ev. rewrite filter_app. destruct (E lane) as [_ E2]. rewrite E2 by (left; lia).
    rewrite app_nil_r. now apply A.
  - intros v V O lane Q. eapply wrote_grows; eauto; [now apply firstn_In in V|fold lns; lia].
Qed.

Lemma stage_next p j s m m' log log' : p + w <= lns -> nth_error g j = Some (s_var s) -> grows m m' ->
  effects_ok sem b size cb g m0 w s p log log' ->
  (is_output size (s_var s) -> forall lane, p <= lane < p + w -> wrote (s_var s) lane m') ->
  at_stage p j m log -> at_stage p (S j) m' log'.
Proof.
  intros L H G (e & -> & E) W [A B]. split.
  - intros lane Q. unfold ev. rewrite filter_app, (firstn_snoc _ _ _ H), filter_app. apply Forall2_app; [now apply A|].
    destruct (E lane) as [E1 E2]. cbn [filter]. destruct (v_side (s_var s)) eqn:SD.
    + destruct (E1 Q eq_refl) as (x & -> & X). repeat constructor. exact X.
    + rewrite E2 by now right. constructor.
  - intros v V O lane Q. rewrite (firstn_snoc _ _ _ H) in V. apply in_app_or in V as [V|[<-|[]]].
    + eapply wrote_grows; eauto; [now apply firstn_In in V|fold lns; lia].
    + now apply W.
Qed.

(** Workers *)
Definition code_from (j : nat) := map (slot_code b w k) (skipn j (k_slots k)).

Definition wok (st : N -> nat) (u : list N * N) (x : worker) : Prop :=
  w_end x = snd u /\ exists dn, (forall p, In p dn -> st p = n) /\ (forall p, In p (w_todo x) -> st p = O) /\
  ((w_code x = [] /\ fst u = dn ++ w_todo x) \/
   (fst u = dn ++ w_index x :: w_todo x /\ st (w_index x) = O /\ w_code x = t_code T /\ w_regs x = []) \/
   (fst u = dn ++ w_index x :: w_todo x /\ (st (w_index x) <= n)%nat /\
    w_code x = code_from (st (w_index x)) /\ reg_inv (st (w_index x)) (w_index x) (w_regs x))).

Variable units : list (list N * N).
Hypothesis UN : units_ok b size w units.

Definition inv (s : machine) : Prop :=
  good (m_mem s) /\ exists st : N -> nat,
    (forall p, In p (concat (map fst units)) -> at_stage p (st p) (m_mem s) (m_log s)) /\
    Forall2 (wok st) units (m_workers s).

Lemma slots_len : length (k_slots k) = n.
Proof. eapply slots_length. exact BU. Qed.

Lemma nth_Forall2 {A B} (P : A -> B -> Prop) l1 l2 j y : Forall2 P l1 l2 -> nth_error l2 j = Some y ->
  exists x, nth_error l1 j = Some x /\ P x y.
Proof.
  intros F. revert j. induction F; intros [|j] HY; try discriminate; cbn in *; [|eauto].
  injection HY as <-. eauto.
Qed.

Lemma set_Forall2 {A B} (P P' : A -> B -> Prop) l1 l2 j x y' : Forall2 P l1 l2 -> nth_error l1 j = Some x ->
  P' x y' -> (forall i a c, i <> j -> nth_error l1 i = Some a -> P a c -> P' a c) ->
  Forall2 P' l1 (set_nth j y' l2).
Proof.
  intros F. revert j. induction F; intros [|j] HX X K; try discriminate; cbn in *.
  - injection HX as <-. constructor; [exact X|].
    assert (K' : forall i a c, nth_error l i = Some a -> P a c -> P' a c) by (intros i a c Q1 Q2; apply (K (S i) a c); [discriminate|exact Q1|exact Q2]).
    clear -F K'. induction F; constructor.
    + eapply (K' O); [reflexivity|assumption].
    + apply IHF. intros i a c Q1 Q2. apply (K' (S i) a c Q1 Q2).
  - constructor; [eapply (K O); [discriminate|reflexivity|assumption]|]. apply IHF; trivial.
    intros i a c NE Q1 Q2. apply (K (S i) a c); [congruence|exact Q1|exact Q2].
Qed.

(** Packets of different workers are different. *)
Lemma apart i j u u' p p' : i <> j -> nth_error units i = Some u -> nth_error units j = Some u' ->
  In p (fst u) -> In p' (fst u') -> p <> p'.
Proof.
  pose proof (un_once _ _ _ _ UN) as ND. revert i j. clear UN. induction units as [|v us IH]; intros [|i] [|j] NE U U' P P' EQ;
    try discriminate; try congruence; cbn in U, U', ND.
  - injection U as ->. apply NoDup_app_remove_l in ND as X || idtac. subst p'.
    assert (In p (concat (map fst us))).
    { apply in_concat. exists (fst u'). split; [apply in_map; eapply nth_error_In; exact U'|exact P']. }
    clear -ND H P. induction (fst u) as [|a l IH]; [inversion P|]. cbn in ND. inversion ND; subst.
    destruct P as [->|P]; [apply H2, in_or_app; now right|auto].
  - injection U' as ->. subst p'.
    assert (In p (concat (map fst us))).
    { apply in_concat. exists (fst u). split; [apply in_map; eapply nth_error_In; exact U|exact P]. }
    clear -ND H P'. induction (fst u') as [|a l IH]; [inversion P'|]. cbn in ND. inversion ND; subst.
    destruct P' as [->|P]; [apply H2, in_or_app; now right|auto].
  - refine (IH _ i j _ U U' P P' EQ); [|congruence].
    clear -ND. induction (fst v) as [|a l IH]; [exact ND|]. cbn in ND. inversion ND. auto.
Qed.

Lemma unit_nodup i u : nth_error units i = Some u -> NoDup (fst u).
Proof.
  pose proof (un_once _ _ _ _ UN) as ND. revert i. clear UN. induction units as [|v us IH]; intros [|i] U; try discriminate; cbn in U, ND.
  - injection U as ->. clear -ND. induction (fst u) as [|a l IH]; [constructor|]. cbn in ND. inversion ND.
    constructor; [intros Q; apply H1, in_or_app; now left|auto].
  - refine (IH _ i U). clear -ND. induction (fst v) as [|a l IH]; [exact ND|]. cbn in ND. inversion ND. auto.
Qed.

Lemma packet_in u p : In u units -> In p (fst u) -> In p (concat (map fst units)).
Proof. intros U P. apply in_concat. exists (fst u). split; [now apply in_map|exact P]. Qed.

Lemma packet_valid p : In p (concat (map fst units)) -> exists e, valid e p.
Proof.
  intros P. apply in_concat in P as (ps & Q & P). apply in_map_iff in Q as ([ps' e] & <- & Q).
  exists e. exact (un_step _ _ _ _ UN ps' e p Q P).
Qed.

Lemma disjoint p p' : In p (concat (map fst units)) -> In p' (concat (map fst units)) -> p <> p' ->
  p + w <= p' \/ p' + w <= p.
Proof.
  intros P P' NE. destruct (packet_valid p P) as (e & V & _), (packet_valid p' P') as (e' & V' & _).
  assert (WP : 0 < w) by (eapply wpos; eauto). apply N.mod_divide in V, V'; try lia. destruct V as [a ->], V' as [c ->].
  assert (a <> c) by congruence. destruct (N.lt_ge_cases a c).
  - left. assert ((a + 1) * w <= c * w) by (apply N.mul_le_mono_r; lia). lia.
  - right. assert ((c + 1) * w <= a * w) by (apply N.mul_le_mono_r; lia). lia.
Qed.

Lemma wok_upd st u x p j : ~ In p (fst u) -> wok st u x -> wok (fun q => if q =? p then j else st q) u x.
Proof.
  intros NI (E & dn & D1 & D2 & C). split; [exact E|]. exists dn.
  assert (K : forall q, In q (fst u) -> (if q =? p then j else st q) = st q).
  { intros q Q. destruct (N.eqb_spec q p); [congruence|reflexivity]. }
  assert (ID : forall q, In q dn -> In q (fst u)).
  { intros q Q. destruct C as [(_ & ->)|[(-> & _)|(-> & _)]]; apply in_or_app; now left. }
  assert (IT : forall q, In q (w_todo x) -> In q (fst u)).
  { intros q Q. destruct C as [(_ & ->)|[(-> & _)|(-> & _)]]; apply in_or_app; right; cbn; auto. }
  split; [intros q Q; rewrite K; auto|]. split; [intros q Q; rewrite K; auto|].
  destruct C as [C|[C|C]]; [now left| |].
  - right. left. assert (II : In (w_index x) (fst u)) by (rewrite (proj1 C); apply in_or_app; right; now left).
    rewrite (K _ II). exact C.
  - right. right. assert (II : In (w_index x) (fst u)) by (rewrite (proj1 C); apply in_or_app; right; now left).
    rewrite (K _ II). exact C.
Qed.

Lemma code_nil j : (j <= n)%nat -> code_from j = [] -> j = n.
Proof.
  intros L H. unfold code_from in H. apply map_eq_nil in H.
  assert (length (skipn j (k_slots k)) = 0%nat) by now rewrite H. rewrite skipn_length, slots_len in H0. lia.
Qed.

Lemma skipn_cons {A} (l : list A) j x r : skipn j l = x :: r -> nth_error l j = Some x /\ skipn (S j) l = r.
Proof.
  revert l. induction j as [|j IH]; intros [|y l] H; try discriminate; cbn in *.
  - injection H as -> ->. auto.
  - now apply IH.
Qed.

(** A worker without remaining statements is between two iterations. *)
Lemma wok_idle st u x : wok st u x -> w_code x = [] ->
  w_end x = snd u /\ exists dn, (forall p, In p dn -> st p = n) /\ (forall p, In p (w_todo x) -> st p = O) /\
    fst u = dn ++ w_todo x.
Proof.
  intros (E & dn & D1 & D2 & C) H. split; [exact E|]. destruct C as [(_ & C)|[(_ & _ & C & _)|(C1 & C2 & C3 & _)]].
  - exists dn. auto.
  - rewrite H in C. discriminate.
  - exists (dn ++ [w_index x]). rewrite H in C3. symmetry in C3. apply code_nil in C3; [|exact C2].
    split; [|split; [exact D2|now rewrite <- app_assoc]].
    intros p P. apply in_app_or in P as [P|[<-|[]]]; auto.
Qed.

Lemma step_inv s j : inv s -> exists s', step sem T w (k_params k) s j = Ok s' /\ inv s'.
Proof.
  intros (G & st & ST & F). unfold step. destruct (nth_error (m_workers s) j) as [x|] eqn:X.
  2:{ exists s. split; [reflexivity|]. split; [exact G|]. eauto. }
  destruct (nth_Forall2 _ _ _ _ _ F X) as (u & U & WX).
  destruct (w_code x) as [|blk rest] eqn:EC.
  - destruct (w_todo x) as [|p r] eqn:ET.
    { exists s. split; [reflexivity|]. split; [exact G|]. eauto. }
    eexists. split; [reflexivity|]. split; [exact G|]. exists st. cbn [m_mem m_log m_workers]. split; [exact ST|].
    eapply set_Forall2; [exact F|exact U| |intros; assumption].
    destruct (wok_idle _ _ _ WX EC) as (E & dn & D1 & D2 & D3). rewrite ET in D2, D3.
    split; [exact E|]. exists dn. cbn [w_todo w_code w_index w_regs].
    split; [exact D1|]. split; [intros q Q; apply D2; now right|]. right. left.
    split; [exact D3|]. split; [apply D2; now left|]. auto.
  - destruct WX as (E & dn & D1 & D2 & C).
    assert (NX : forall i a c q jj, i <> j -> nth_error units i = Some a -> In q (fst u) -> wok st a c ->
              wok (fun y => if y =? q then jj else st y) a c).
    { intros i a c q jj NE A Q. apply wok_upd. intros I. now apply (apart i j a u q q NE A U I Q). }
    destruct C as [(C & _)|[(C1 & C2 & C3 & C4)|(C1 & C2 & C3 & C4)]]; [congruence| |].
    + (* the call-data pointer *)
      rewrite EC in C3. unfold T in C3. unfold generate in C3. cbn [t_code] in C3. injection C3 as -> ->.
      assert (BK : exists r, exec sem T w (k_params k) (w_index x) (w_end x)
                {| c_regs := []; c_mem := m_mem s; c_log := m_log s |} (base_code b k) =
                Ok {| c_regs := r; c_mem := m_mem s; c_log := m_log s |} /\ reg_inv 0 (w_index x) r)
        by (eapply base_ok; eauto).
      destruct BK as (r & R1 & R2).
      fold T in R1. rewrite C4, R1. cbn [obind c_regs c_mem c_log].
      eexists. split; [reflexivity|]. split; [exact G|]. exists st. cbn [m_mem m_log m_workers]. split; [exact ST|].
      eapply set_Forall2; [exact F|exact U| |intros; assumption].
      split; [exact E|]. exists dn. cbn [w_todo w_code w_index w_regs w_end].
      split; [exact D1|]. split; [exact D2|]. right. right. rewrite C2.
      split; [exact C1|]. split; [lia|]. split; [reflexivity|exact R2].
    + (* a variable *)
      rewrite EC in C3. unfold code_from in C3.
      destruct (skipn (st (w_index x)) (k_slots k)) as [|sl more] eqn:SK; [discriminate|].
      cbn [map] in C3. injection C3 as -> ->. apply skipn_cons in SK as [SL MORE].
      set (p := w_index x) in *.
      assert (UI : In u units) by (eapply nth_error_In; exact U).
      assert (PU : In p (fst u)) by (rewrite C1; apply in_or_app; right; now left).
      assert (PI : In p (concat (map fst units))) by (eapply packet_in; eauto).
      assert (VP : valid (w_end x) p).
      { rewrite E. destruct u as [ps e]. exact (un_step _ _ _ _ UN ps e p UI PU). }
      assert (GV : nth_error g (st p) = Some (s_var sl)) by (eapply slot_var; eauto).
      destruct (chunk p (w_end x) (st p) sl SL VP (w_regs x) (m_mem s) (m_log s) C4 G)
        as (c' & X1 & X2 & X3 & X4 & X5).
      fold T in X1. rewrite X1. cbn [obind]. eexists. split; [reflexivity|]. cbn [m_mem m_log m_workers].
      split; [cbn [m_mem]; eapply grows_good; eauto|].
      exists (fun q => if q =? p then S (st p) else st q). split.
      * cbn [m_mem m_log]. intros q Q. destruct (N.eqb_spec q p) as [->|NE].
        -- eapply stage_next; eauto. apply VP.
        -- eapply stage_other; eauto; [apply disjoint; [exact PI|exact Q|congruence]|]. destruct (packet_valid q Q) as (e' & V'). apply V'.
      * cbn [m_workers]. eapply set_Forall2; [exact F|exact U| |intros; eapply NX; eauto].
        split; [exact E|]. exists dn. cbn [w_todo w_code w_index w_regs w_end].
        pose proof (unit_nodup _ _ U) as ND. rewrite C1 in ND.
        pose proof (NoDup_remove_2 _ _ _ ND) as NI.
        split; [intros q Q; destruct (N.eqb_spec q p) as [->|NE]; [elim NI; apply in_or_app; now left|auto]|].
        split; [intros q Q; destruct (N.eqb_spec q p) as [->|NE]; [elim NI; apply in_or_app; now right|auto]|].
        right. right. rewrite N.eqb_refl. split; [exact C1|].
        assert (LT : (st p < length (k_slots k))%nat) by (apply nth_error_Some; congruence). rewrite slots_len in LT.
        split; [lia|]. split; [|exact X2]. unfold code_from. now rewrite MORE.
Qed.

Lemma run_inv picks : forall s, inv s -> exists s', run sem T w (k_params k) s picks = Ok s' /\ inv s'.
Proof.
  induction picks as [|j r IH]; intros s I; cbn [run]; [eauto|].
  destruct (step_inv s j I) as (s1 & -> & I1). cbn [obind]. auto.
Qed.

Lemma inv_start : inv (launched m0 units).
Proof.
  split; [intros a; now left|]. exists (fun _ => O). split.
  - intros p P. split; [intros; constructor|intros v []].
  - unfold launched. cbn [m_workers]. generalize units as us. clear.
    induction us as [|u us IH]; cbn [map]; constructor; [|exact IH].
    split; [reflexivity|]. exists []. cbn [w_todo w_code app]. split; [intros p []|]. split; [reflexivity|]. now left.
Qed.

Lemma inv_finished s : inv s -> finished s = true ->
  launched_ok sem b size cb g m0 w (k_bufs k) (m_mem s) (m_log s).
Proof.
  intros (G & st & ST & F) FIN.
  assert (ALL : forall p, In p (concat (map fst units)) -> st p = n).
  { intros p P. apply in_concat in P as (ps & Q & P). apply in_map_iff in Q as (u & <- & Q).
    unfold finished in FIN. rewrite forallb_forall in FIN.
    assert (X : exists x, In x (m_workers s) /\ wok st u x).
    { clear -F Q. induction F; [inversion Q|]. destruct Q as [->|Q]; [exists y; split; [now left|assumption]|].
      destruct (IHF Q) as (z & Z1 & Z2). exists z. split; [now right|exact Z2]. }
    destruct X as (x & X1 & X2). specialize (FIN x X1). cbv beta in FIN.
    destruct (w_code x) eqn:EC; [|discriminate]. destruct (w_todo x) eqn:ET; [|discriminate].
    destruct (wok_idle _ _ _ X2 EC) as (_ & dn & D1 & _ & D3). rewrite ET, app_nil_r in D3. apply D1. now rewrite <- D3. }
  assert (DONE : forall lane, lane < size ->
     Forall2 (effect lane) (filter v_side g) (ev lane (m_log s)) /\
     forall v, In v g -> is_output size v -> wrote v lane (m_mem s)).
  { intros lane L. destruct (un_all _ _ _ _ UN lane L) as (p & P & PL).
    pose proof (ST p P) as [A B]. rewrite (ALL p P) in A, B. unfold n in A, B. rewrite firstn_all in A, B.
    split; [now apply A|]. intros v V O. now apply B. }
  pose proof lanes_le as [LE _]. constructor.
  - intros v V O.
    assert (P0 : exists p, outp b size w k v p).
    { pose proof (wf_size _ _ _ WF). destruct (DONE 0) as [_ D]; [lia|]. destruct (D v V O) as (p & x & P & _). eauto. }
    destruct P0 as [p P]. exists (out_bytes b w size (v_type v)), p. split; [exact P|].
    intros lane L. destruct (DONE lane L) as [_ D]. destruct (D v V O) as (p' & x & P' & M & H).
    assert (p' = p) by (eapply outp_det; eauto). subst p'. exists x. split; [exact M|]. split.
    + assert (TV : v_type v <> T_Void /\ type_size (v_type v) <> 0).
      { assert (TV : v_type v <> T_Void) by (intros TV; destruct (wf_void _ _ _ WF v V TV), O; congruence).
        split; [exact TV|now apply (wf_types _ _ _ WF)]. }
      destruct TV as [TV TZ].
      pose proof (de_typed _ _ _ _ _ _ _ DE v lane x V TV ltac:(fold lns; lia) M) as B.
      replace (256 ^ type_size (v_type v)) with (2 ^ (8 * type_size (v_type v))) by (rewrite N.pow_mul_r; reflexivity).
      eapply N.lt_le_trans; [exact B|]. apply N.pow_le_mono_r; [lia|]. unfold bits_of.
      destruct (v_type v =? T_Bool); lia.
    + exact H.
  - intros a A. eapply good_same; eauto.
  - intros lane L. apply DONE. exact L.
Qed.

Lemma launch_safe picks : exists s', run sem T w (k_params k) (launched m0 units) picks = Ok s' /\
  (finished s' = true -> launched_ok sem b size cb g m0 w (k_bufs k) (m_mem s') (m_log s')).
Proof.
  destruct (run_inv picks _ inv_start) as (s' & R & I). exists s'. split; [exact R|]. now apply inv_finished.
Qed.
End MACHINE.

(** * Termination: every worker that takes enough steps is finished. *)
Section PROGRESS.
Variable sem : N -> N -> list N -> mem -> option N.
Variable t : text.
Variable w : N.
Variable params : list N.

Definition rest (x : worker) : nat := (length (w_code x) + length (w_todo x) * S (length (t_code t)))%nat.

Lemma step_rest s s' j : step sem t w params s j = Ok s' ->
  length (m_workers s') = length (m_workers s) /\
  forall i x', nth_error (m_workers s') i = Some x' -> exists x, nth_error (m_workers s) i = Some x /\
    (rest x' <= rest x - (if Nat.eq_dec j i then 1 else 0))%nat.
Proof.
  unfold step. intros H. destruct (nth_error (m_workers s) j) as [x|] eqn:X.
  2:{ injection H as <-. split; [reflexivity|]. intros i x' X'. exists x'. split; [exact X'|].
      destruct (Nat.eq_dec j i); [congruence|lia]. }
  assert (JL : (j < length (m_workers s))%nat) by (apply nth_error_Some; congruence).
  assert (K : forall y, (rest y <= rest x - 1)%nat -> forall i x', nth_error (set_nth j y (m_workers s)) i = Some x' ->
     exists x, nth_error (m_workers s) i = Some x /\ (rest x' <= rest x - (if Nat.eq_dec j i then 1 else 0))%nat).
  { intros y Y i x' X'. destruct (Nat.eq_dec j i) as [<-|NE].
    - rewrite nth_error_set_nth_eq in X' by exact JL. injection X' as <-. eauto.
    - rewrite nth_error_set_nth_neq in X' by congruence. exists x'. split; [exact X'|lia]. }
  destruct (w_code x) as [|blk r] eqn:EC.
  - destruct (w_todo x) as [|p q] eqn:ET.
    + injection H as <-. split; [reflexivity|]. intros i x' X'. exists x'. split; [exact X'|].
      destruct (Nat.eq_dec j i) as [<-|]; [|lia]. rewrite X in X'. injection X' as <-.
      unfold rest. rewrite EC, ET. cbn. lia.
    + injection H as <-. cbn [m_workers]. split; [apply set_nth_length|]. apply K.
      unfold rest. cbn [w_code w_todo]. rewrite EC, ET. cbn [length]. lia.
  - destruct (exec sem t w params (w_index x) (w_end x) {| c_regs := w_regs x; c_mem := m_mem s; c_log := m_log s |} blk)
      as [c| |]; try discriminate.
    cbn [obind] in H. injection H as <-. cbn [m_workers]. split; [apply set_nth_length|]. apply K.
    unfold rest. cbn [w_code w_todo]. rewrite EC. cbn [length]. lia.
Qed.

Lemma run_rest picks : forall s s', run sem t w params s picks = Ok s' ->
  length (m_workers s') = length (m_workers s) /\
  forall i x', nth_error (m_workers s') i = Some x' -> exists x, nth_error (m_workers s) i = Some x /\
    (rest x' <= rest x - count_occ Nat.eq_dec picks i)%nat.
Proof.
  induction picks as [|j r IH]; intros s s' H; cbn [run] in H.
  - injection H as <-. split; [reflexivity|]. intros i x' X. exists x'. split; [exact X|]. cbn. lia.
  - destruct (step sem t w params s j) as [s1| |] eqn:E; try discriminate. cbn [obind] in H.
    destruct (step_rest _ _ _ E) as [L1 K1]. destruct (IH _ _ H) as [L2 K2]. split; [congruence|].
    intros i x' X'. destruct (K2 i x' X') as (x1 & X1 & Q1). destruct (K1 i x1 X1) as (x & X2 & Q2).
    exists x. split; [exact X2|]. cbn [count_occ]. destruct (Nat.eq_dec j i); lia.
Qed.

Lemma fair_finishes m units picks s' : run sem t w params (launched m units) picks = Ok s' ->
  (forall i u, nth_error units i = Some u ->
     length (fst u) * S (length (t_code t)) <= count_occ Nat.eq_dec picks i)%nat ->
  finished s' = true.
Proof.
  intros R F. destruct (run_rest _ _ _ R) as [_ K]. unfold finished. apply forallb_forall. intros x' X'.
  apply In_nth_error in X' as [i X']. destruct (K i x' X') as (x & X & Q).
  cbn [launched m_workers] in X. rewrite nth_error_map in X. destruct (nth_error units i) as [u|] eqn:U; [|discriminate].
  cbn [option_map] in X. injection X as <-. specialize (F i u U). unfold rest in Q at 2. cbn [w_code w_todo length] in Q.
  unfold rest in Q. destruct (w_code x'); [|cbn [length] in Q; lia]. destruct (w_todo x'); [reflexivity|]. cbn [length] in Q. lia.
Qed.
End PROGRESS.
