(** Frozen functions: memory of the replay. *)
From Verif Require Import Base Rpl_Model Rpl_Spec Rpl_Rec.
Local Open Scope N_scope.

Section Sim.
Context {C : Type} (blank : C).
Notation st := (st (C := C)). Notation env := (env (C := C)). Notation slot := (slot (C := C)).

Definition okslot (t : st) (i : nat) (v : option (C * N)) : Prop :=
  match v with Some (c, b) => exists d, s_data (get t i) = Some (d, c) /\ s_size (get t i) = b /\ b <= s_alloc (get t i) | None => False end.

(** ** Ownership: the buffers of the replay are in slots or freed, once *)
Definition bufs_of (x : slot) : list buf := match s_data x with Some (BNew k, _) => [BNew k] | _ => [] end.
Definition ledger (nin : nat) (t : st) : Prop :=
  (forall i d c, s_data (get t i) = Some (d, c) -> if (i <? nin)%nat then d = BIn i else exists k, d = BNew k) /\
  Permutation (t_freed t ++ flat_map bufs_of (t_slots t)) (map BNew (seq 0 (t_next t))).

Lemma get_set (t : st) i x j : (i < length (t_slots t))%nat -> get (put t i x) j = if (j =? i)%nat then x else get t j.
Proof.
  intros L. unfold get, put. cbn [t_slots]. destruct (Nat.eqb_spec j i) as [->|E]; [now rewrite nth_set_nth_eq|]. now rewrite nth_set_nth_neq by auto.
Qed.
Lemma flat_set (f : slot -> list buf) : forall l i x, (i < length l)%nat -> exists rest, Permutation (flat_map f l) (f (nth i l slot0) ++ rest) /\ Permutation (flat_map f (set_nth i x l)) (f x ++ rest).
Proof.
  induction l as [|h l IH]; intros [|i] x L; cbn [length] in L; try lia; cbn [flat_map set_nth nth].
  - exists (flat_map f l). split; reflexivity.
  - destruct (IH i x ltac:(lia)) as (r & P1 & P2). exists (f h ++ r). split.
    + rewrite P1, !app_assoc. apply Permutation_app_tail. apply Permutation_app_comm.
    + rewrite P2, !app_assoc. apply Permutation_app_tail. apply Permutation_app_comm.
Qed.
Lemma fresh_perm (fr r o : list buf) n : Permutation (fr ++ o ++ r) (map BNew (seq 0 n)) -> forall fr', Permutation fr' (fr ++ o) -> Permutation (fr' ++ [BNew n] ++ r) (map BNew (seq 0 (S n))).
Proof.
  intros P fr' PF. rewrite seq_S, map_app. cbn [map Nat.add]. rewrite <- P, PF. rewrite !app_assoc, <- (app_assoc (fr ++ o)). 
  rewrite (app_assoc (fr ++ o)). rewrite <- (app_assoc _ [BNew n] r), (Permutation_app_comm [BNew n] r). now rewrite app_assoc.
Qed.

Lemma alloc_ok nin (t : st) i d : ledger nin t -> (i < length (t_slots t))%nat -> (nin <= i)%nat ->
  let t' := alloc blank false t i d in
  ledger nin t' /\ length (t_slots t') = length (t_slots t) /\ (forall j, j <> i -> get t' j = get t j) /\
  (exists b c, s_data (get t' i) = Some (b, c)) /\ s_size (get t' i) = d /\ d <= s_alloc (get t' i).
Proof.
  intros [LI LP] B NI. unfold alloc.
  assert (GS : forall x n f j, get {| t_slots := set_nth i x (t_slots t); t_next := n; t_freed := f |} j = if (j =? i)%nat then x else get t j).
  { intros x n f j. pose proof (get_set t i x j B) as X. unfold get, put in *. exact X. }
  assert (OLD : forall x n f, (forall dd c, s_data x = Some (dd, c) -> exists k, dd = BNew k) -> forall j dd c, s_data (get {| t_slots := set_nth i x (t_slots t); t_next := n; t_freed := f |} j) = Some (dd, c) -> if (j <? nin)%nat then dd = BIn j else exists k, dd = BNew k).
  { intros x n f HX j dd c. rewrite GS. destruct (Nat.eqb_spec j i) as [->|NE]; [|apply LI]. intros E. replace (i <? nin)%nat with false by (symmetry; apply Nat.ltb_ge; exact NI). eauto. }
  destruct (s_data (get t i)) as [[b c]|] eqn:E.
  - destruct (s_alloc (get t i) <? d) eqn:EA.
    + cbn zeta. split.
      { split; cbn [t_freed t_next t_slots].
        - apply OLD. cbn [s_data]. intros dd c' X. injection X as <- <-. eauto.
        - destruct (flat_set bufs_of (t_slots t) i {| s_data := Some (BNew (t_next t), blank); s_alloc := d; s_size := d |} B) as (r & P1 & P2).
          rewrite P2. cbn [bufs_of s_data]. apply (fresh_perm (t_freed t) r (bufs_of (get t i)) (t_next t)); [rewrite <- LP; apply Permutation_app_head; symmetry; exact P1|].
          apply Permutation_app_head. unfold bufs_of. rewrite E. pose proof (LI _ _ _ E) as X. replace (i <? nin)%nat with false in X by (symmetry; apply Nat.ltb_ge; exact NI). destruct X as [k ->]. reflexivity. }
      cbn [t_slots]. rewrite set_nth_length. split; [reflexivity|]. rewrite GS, Nat.eqb_refl. cbn [s_data s_size s_alloc]. split; [intros j NE; rewrite GS; now rewrite (proj2 (Nat.eqb_neq j i) NE)|].
      split; [eauto|]. split; [reflexivity|lia].
    + unfold put. split.
      { split; cbn [t_freed t_next t_slots].
        - apply OLD. cbn [s_data]. intros dd c' X. pose proof (LI i dd c') as Y. rewrite E in Y. specialize (Y X). replace (i <? nin)%nat with false in Y by (symmetry; apply Nat.ltb_ge; exact NI). exact Y.
        - destruct (flat_set bufs_of (t_slots t) i {| s_data := Some (b, c); s_alloc := s_alloc (get t i); s_size := d |} B) as (r & P1 & P2).
          rewrite P2. rewrite <- LP. apply Permutation_app_head. rewrite P1. unfold bufs_of. unfold get in E. rewrite E. reflexivity. }
      cbn [t_slots]. rewrite set_nth_length. split; [reflexivity|]. rewrite GS, Nat.eqb_refl. cbn [s_data s_size s_alloc]. split; [intros j NE; rewrite GS; now rewrite (proj2 (Nat.eqb_neq j i) NE)|].
      split; [eauto|]. split; [reflexivity|lia].
  - cbn zeta. split.
    { split; cbn [t_freed t_next t_slots].
      - apply OLD. cbn [s_data]. intros dd c' X. injection X as <- <-. eauto.
      - destruct (flat_set bufs_of (t_slots t) i {| s_data := Some (BNew (t_next t), blank); s_alloc := d; s_size := d |} B) as (r & P1 & P2).
        rewrite P2. cbn [bufs_of s_data]. apply (fresh_perm (t_freed t) r (bufs_of (get t i)) (t_next t)); [rewrite <- LP; apply Permutation_app_head; symmetry; exact P1|].
        unfold bufs_of. rewrite E. now rewrite app_nil_r. }
    cbn [t_slots]. rewrite set_nth_length. split; [reflexivity|]. rewrite GS, Nat.eqb_refl. cbn [s_data s_size s_alloc]. split; [intros j NE; rewrite GS; now rewrite (proj2 (Nat.eqb_neq j i) NE)|].
    split; [eauto|]. split; [reflexivity|lia].
Qed.

Definition ready (t : st) (i : nat) (d : N) : Prop := (exists b c, s_data (get t i) = Some (b, c)) /\ s_size (get t i) = d /\ d <= s_alloc (get t i).
Lemma alloc_all_ok nin : forall (l : list oarg) ds (t : st), ledger nin t -> NoDup (map o_slot l) -> Forall (fun a => (nin <= o_slot a < length (t_slots t))%nat) l -> length ds = length l ->
  let t' := alloc_all blank false t l ds in
  ledger nin t' /\ length (t_slots t') = length (t_slots t) /\ (forall j, ~ In j (map o_slot l) -> get t' j = get t j) /\ Forall2 (fun a d => ready t' (o_slot a) d) l ds.
Proof.
  induction l as [|a l IH]; intros ds t LG ND FB LN; destruct ds as [|d ds]; cbn [length] in LN; try lia; cbn [alloc_all]; [repeat split; try apply LG; constructor|].
  apply Forall_cons_iff in FB as [Ba FB]. cbn [map] in ND. apply NoDup_cons_iff in ND as [NI ND].
  destruct (alloc_ok nin t (o_slot a) d LG) as (G1 & L1 & O1 & R1); [lia|lia|].
  destruct (IH ds (alloc blank false t (o_slot a) d) G1 ND) as (G2 & L2 & O2 & R2); [now rewrite L1|lia|].
  split; [exact G2|]. split; [congruence|]. split.
  - intros j H. cbn [map In] in H. rewrite O2 by tauto. apply O1. intros ->. apply H. now left.
  - constructor; [|exact R2]. unfold ready. rewrite O2 by assumption. exact R1.
Qed.

(** ** Reading and writing *)
Definition lk (m : list (N * nat)) (a : arg) (o : oarg) : Prop := o_out o = a_out a /\ find (a_p a) m = Some (o_slot o).
Lemma load_ok m (t : st) (e : env) : forall l os cs, Forall2 (lk m) l os ->
  (forall a, In a l -> a_out a = false -> forall i, find (a_p a) m = Some i -> okslot t i (e (a_p a))) ->
  (forall a, In a l -> a_out a = true -> forall i, find (a_p a) m = Some i -> exists b c, s_data (get t i) = Some (b, c)) ->
  reads blank e l = Some cs -> load blank t os = Some cs.
Proof.
  induction l as [|a l IH]; intros os cs FL HI HO E; inversion FL as [|? o ? os' [L1 L2] FL']; subst; cbn [reads load] in *; [exact E|].
  assert (IHx : forall r, reads blank e l = Some r -> load blank t os' = Some r) by (intros r Er; apply IH; auto; intros b Hb; [apply HI|apply HO]; now right).
  rewrite L1. destruct (a_out a) eqn:EO.
  - destruct (HO a (or_introl eq_refl) EO _ L2) as (b & c & ->). cbn [bind] in *. destruct (reads blank e l) as [r|]; [|discriminate]. rewrite (IHx r eq_refl). exact E.
  - pose proof (HI a (or_introl eq_refl) EO _ L2) as OK. unfold okslot in OK. destruct (e (a_p a)) as [[c b]|]; [|contradiction]. destruct OK as (d & -> & _). cbn [bind option_map fst snd] in *.
    destruct (reads blank e l) as [r|]; [|discriminate]. rewrite (IHx r eq_refl). exact E.
Qed.

(** What does not depend on contents *)
Definition same_bufs (t t' : st) : Prop :=
  length (t_slots t') = length (t_slots t) /\ t_next t' = t_next t /\ t_freed t' = t_freed t /\ (forall j, option_map fst (s_data (get t' j)) = option_map fst (s_data (get t j))).
Lemma same_bufs_trans t1 t2 t3 : same_bufs t1 t2 -> same_bufs t2 t3 -> same_bufs t1 t3.
Proof. intros (A1 & A2 & A3 & A4) (B1 & B2 & B3 & B4). split; [congruence|]. split; [congruence|]. split; [congruence|]. intros j. now rewrite B4, A4. Qed.
Lemma ledger_bufs nin (t t' : st) : same_bufs t t' -> ledger nin t -> ledger nin t'.
Proof.
  intros (A1 & A2 & A3 & A4) [L1 L2]. split.
  - intros i d c E. pose proof (A4 i) as X. rewrite E in X. cbn [option_map fst] in X. destruct (s_data (get t i)) as [[d' c']|] eqn:E'; [|discriminate]. cbn [option_map fst] in X. injection X as ->. apply (L1 _ _ _ E').
  - rewrite A2, A3, <- L2. apply Permutation_app_head.
    assert (X : map bufs_of (t_slots t') = map bufs_of (t_slots t)).
    { apply nth_ext with (d := bufs_of slot0) (d' := bufs_of slot0); [now rewrite !map_length|]. intros n _. rewrite !map_nth. specialize (A4 n). unfold get in A4. unfold bufs_of.
      destruct (s_data (nth n (t_slots t') slot0)) as [[b1 c1]|], (s_data (nth n (t_slots t) slot0)) as [[b2 c2]|]; cbn in A4; try discriminate; [|reflexivity]. now injection A4 as ->. }
    rewrite !flat_map_concat_map, X. reflexivity.
Qed.
Lemma store1_bufs (t : st) i c : (i < length (t_slots t))%nat -> same_bufs t (store1 t i c).
Proof.
  intros B. unfold store1. destruct (s_data (get t i)) as [[b c0]|] eqn:E; [|repeat split]. split; [unfold put; cbn [t_slots]; apply set_nth_length|]. split; [reflexivity|]. split; [reflexivity|].
  intros j. rewrite get_set by assumption. destruct (Nat.eqb_spec j i) as [->|]; [|reflexivity]. cbn [s_data option_map fst]. now rewrite E.
Qed.
Lemma store1_get (t : st) i c j : (i < length (t_slots t))%nat -> get (store1 t i c) j = if (j =? i)%nat then match s_data (get t i) with Some (b, _) => {| s_data := Some (b, c); s_alloc := s_alloc (get t i); s_size := s_size (get t i) |} | None => get t i end else get t j.
Proof.
  intros B. unfold store1. destruct (s_data (get t i)) as [[b c0]|] eqn:E; [now apply get_set|]. destruct (Nat.eqb_spec j i) as [->|]; reflexivity.
Qed.
Lemma store_bufs : forall (l : list oarg) cs (t : st), Forall (fun a => (o_slot a < length (t_slots t))%nat) l -> same_bufs t (store t l cs).
Proof.
  induction l as [|a l IH]; intros cs t F; destruct cs as [|c cs]; cbn [store]; try (repeat split; fail). apply Forall_cons_iff in F as [Fa F].
  pose proof (store1_bufs t (o_slot a) c Fa) as S. eapply same_bufs_trans; [exact S|]. apply IH. destruct S as (-> & _). exact F.
Qed.
Lemma store_other : forall (l : list oarg) cs (t : st) j, Forall (fun a => (o_slot a < length (t_slots t))%nat) l -> ~ In j (map o_slot l) -> get (store t l cs) j = get t j.
Proof.
  induction l as [|a l IH]; intros cs t j F NI; destruct cs as [|c cs]; cbn [store]; auto. apply Forall_cons_iff in F as [Fa F]. cbn [map In] in NI.
  rewrite IH.
  - rewrite store1_get by assumption. destruct (Nat.eqb_spec j (o_slot a)); [subst; tauto|reflexivity].
  - destruct (store1_bufs t (o_slot a) c Fa) as (-> & _). exact F.
  - tauto.
Qed.

Lemma store_ok m : (forall x y i, find x m = Some i -> find y m = Some i -> x = y) -> forall l os cs (t : st) (e : env), Forall2 (lk m) l os -> length cs = length l ->
  Forall (fun a => (o_slot a < length (t_slots t))%nat) os ->
  NoDup (outs l) -> (forall a b, In a l -> In b l -> a_out a = true -> a_out b = false -> a_p a <> a_p b) ->
  (forall x i, find x m = Some i -> ~ In x (outs l) -> e x <> None -> okslot t i (e x)) ->
  (forall a i, In a l -> a_out a = true -> find (a_p a) m = Some i -> ready t i (a_b a)) ->
  (forall a, In a l -> a_out a = false -> e (a_p a) <> None) ->
  forall x i, find x m = Some i -> writes e l cs x <> None -> okslot (store t os cs) i (writes e l cs x).
Proof.
  intros INJ. induction l as [|a l IH]; intros os cs t e FL LN FB ND DJ H1 H2 H3 x i Ex NN; inversion FL as [|? o ? os' [L1 L2] FL']; subst; destruct cs as [|c cs]; cbn [length] in LN; try lia; cbn [writes store] in *.
  - apply H1; auto.
  - apply Forall_cons_iff in FB as [Fo FB].
    pose proof (store1_bufs t (o_slot o) c Fo) as (SL & _).
    apply IH; clear IH; auto.
    + now rewrite SL.
    + unfold outs in ND. cbn [filter] in ND. destruct (a_out a); [cbn [map] in ND; apply NoDup_cons_iff in ND; apply ND|exact ND].
    + intros b b' Hb Hb'. apply DJ; now right.
    + intros y j Ey NI Ny. unfold bindv in *. destruct (N.eqb_spec y (a_p a)) as [->|NE].
      * assert (j = o_slot o) by congruence. subst j. unfold okslot. rewrite store1_get by assumption. rewrite Nat.eqb_refl.
        destruct (a_out a) eqn:EO.
        -- destruct (H2 a _ (or_introl eq_refl) EO L2) as ((b & c0 & Ed) & Es & Ea). rewrite Ed. cbn [s_data s_size s_alloc]. exists b. cbn [fst snd]. auto.
        -- assert (NO : ~ In (a_p a) (outs (a :: l))).
           { intros X. unfold outs in X. cbn [filter] in X. rewrite EO in X. apply in_map_iff in X as (a' & Ea' & X). apply filter_In in X as [X O']. apply (DJ a' a (or_intror X) (or_introl eq_refl) O' EO). exact Ea'. }
           pose proof (H1 _ _ L2 NO (H3 a (or_introl eq_refl) EO)) as OK. unfold okslot in OK. destruct (e (a_p a)) as [[c1 b1]|]; [|contradiction]. destruct OK as (d & Ed & Es & Ea). rewrite Ed. cbn [s_data s_size s_alloc snd]. exists d. auto.
      * assert (j <> o_slot o) by (intros ->; apply NE; apply (INJ _ _ _ Ey L2)).
        assert (OK : okslot t j (e y)). { apply H1; auto. unfold outs. cbn [filter]. destruct (a_out a); [cbn [map In]; intros [X|X]; [congruence|tauto]|exact NI]. }
        unfold okslot in *. rewrite store1_get by assumption. rewrite (proj2 (Nat.eqb_neq j (o_slot o))) by assumption. exact OK.
    + intros b j Hb Ob Eb. assert (NE : j <> o_slot o).
      { intros ->. pose proof (INJ _ _ _ Eb L2) as X. destruct (a_out a) eqn:EO.
        - unfold outs in ND. cbn [filter] in ND. rewrite EO in ND. cbn [map] in ND. apply NoDup_cons_iff in ND as [NI _]. apply NI. rewrite <- X. apply in_map. apply filter_In. auto.
        - apply (DJ b a (or_intror Hb) (or_introl eq_refl) Ob EO X). }
      unfold ready. rewrite store1_get by assumption. rewrite (proj2 (Nat.eqb_neq j (o_slot o))) by assumption. apply (H2 b j (or_intror Hb) Ob Eb).
    + intros b Hb Ob. unfold bindv. destruct (a_p b =? a_p a); [discriminate|]. apply H3; [now right|assumption].
Qed.

Lemma writes_known : forall l cs (e : env) x, length cs = length l -> (forall a, In a l -> a_out a = false -> e (a_p a) <> None) ->
  (writes e l cs x <> None <-> In x (outs l) \/ e x <> None).
Proof.
  induction l as [|a l IH]; intros cs e x LN HI; destruct cs as [|c cs]; cbn [length] in LN; try lia; cbn [writes]; [unfold outs; cbn [filter map In]; tauto|].
  rewrite IH; [|lia|].
  - unfold outs. cbn [filter]. unfold bindv. destruct (N.eqb_spec x (a_p a)) as [->|NE].
    + destruct (a_out a) eqn:EO; cbn [map In]; [split; [auto|intros _; right; discriminate]|]. split; [|intros _; right; discriminate].
      intros _. right. now apply HI; [left|].
    + destruct (a_out a); cbn [map In]; [intuition congruence|tauto].
  - intros b Hb Ob. unfold bindv. destruct (a_p b =? a_p a); [discriminate|]. apply HI; [now right|assumption].
Qed.
Lemma reads_some (e : env) : forall l, (forall a, In a l -> a_out a = false -> e (a_p a) <> None) -> exists cs, reads blank e l = Some cs /\ length cs = length l.
Proof.
  induction l as [|a l IH]; intros H; cbn [reads]; [exists []; auto|]. destruct IH as (cs & E & L); [intros b Hb; apply H; now right|]. rewrite E.
  destruct (a_out a) eqn:EO; cbn [bind]; [eexists; split; [reflexivity|cbn [length]; lia]|].
  pose proof (H a (or_introl eq_refl) EO) as X. destruct (e (a_p a)) as [v|]; [|congruence]. cbn [option_map bind]. eexists; split; [reflexivity|cbn [length]; lia].
Qed.
End Sim.
