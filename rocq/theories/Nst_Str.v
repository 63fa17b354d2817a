(** Proofs about the strings of [Nst_Model]. *)

From Verif Require Import Base Nst_Model Nst_Spec Nst_Heap.

#[local] Ltac Zify.zify_post_hook ::= idtac.

Definition srep (h : heap) (o : sobj) (s : list Z) : Prop :=
  match s_data o with
  | None => s = [] /\ s_cap o = O /\ s_size o = O
  | Some b => exists rest, blk h b = Some (map Some s ++ Some 0%Z :: rest) /\
                (length s + length rest)%nat = s_cap o /\ s_size o = length s
  end.

Definition Inv (w : world) (g : seqs) : Prop :=
  (forall i, srep (w_heap w) (w_str w i) (g i)) /\
  (forall i j b, s_data (w_str w i) = Some b -> s_data (w_str w j) = Some b -> i = j) /\
  (forall b, (nxt (w_heap w) <= b)%nat -> blk (w_heap w) b = None) /\
  (forall b, blk (w_heap w) b <> None -> exists i, s_data (w_str w i) = Some b).

Lemma inv_ext w g g' : (forall i, g i = g' i) -> Inv w g -> Inv w g'.
Proof.
  intros E (A & B). split; [|exact B]. intros i. rewrite <- E. apply A.
Qed.

Lemma srep_size h o s : srep h o s -> s_size o = length s.
Proof.
  unfold srep. destruct (s_data o); [intros (r & _ & _ & E); exact E|].
  intros (-> & _ & E). exact E.
Qed.

Lemma srep_le h o s : srep h o s -> (length s <= s_cap o)%nat.
Proof.
  unfold srep. destruct (s_data o); [intros (r & _ & E & _); lia|].
  intros (-> & _ & E). cbn. lia.
Qed.

Lemma inv_size w g i : Inv w g -> s_size (w_str w i) = length (g i).
Proof. intros (A & _). exact (srep_size _ _ _ (A i)). Qed.

Lemma inv_block w g i b : Inv w g -> s_data (w_str w i) = Some b ->
  exists rest, blk (w_heap w) b = Some (map Some (g i) ++ Some 0%Z :: rest) /\
    (length (g i) + length rest)%nat = s_cap (w_str w i).
Proof.
  intros (A & _) E. specialize (A i). unfold srep in A. rewrite E in A.
  destruct A as (r & A1 & A2 & _). eauto.
Qed.

Lemma inv_lt w g i b : Inv w g -> s_data (w_str w i) = Some b -> (b < nxt (w_heap w))%nat.
Proof.
  intros I E. destruct (inv_block _ _ _ _ I E) as (r & Hb & _).
  destruct I as (_ & _ & C & _).
  destruct (Nat.lt_ge_cases b (nxt (w_heap w))) as [L|L]; [exact L|].
  rewrite (C b L) in Hb. discriminate.
Qed.

Lemma inv_nonnull w g i : Inv w g -> s_cap (w_str w i) <> O -> exists b, s_data (w_str w i) = Some b.
Proof.
  intros (A & _) N. specialize (A i). unfold srep in A.
  destruct (s_data (w_str w i)); [eauto|]. destruct A as (_ & A & _). congruence.
Qed.

Lemma srep_frame h h' o s :
  (forall b, s_data o = Some b -> blk h' b = blk h b) -> srep h o s -> srep h' o s.
Proof.
  unfold srep. destruct (s_data o) as [b|]; [|auto]. intros E. now rewrite (E b eq_refl).
Qed.

Lemma inv_update w g d o s h :
  Inv w g ->
  (forall j b, j <> d -> s_data (w_str w j) = Some b -> blk h b = blk (w_heap w) b) ->
  srep h o s ->
  (forall j b, j <> d -> s_data o = Some b -> s_data (w_str w j) <> Some b) ->
  (forall b, (nxt h <= b)%nat -> blk h b = None) ->
  (forall b, blk h b <> None ->
     s_data o = Some b \/ exists j, j <> d /\ s_data (w_str w j) = Some b) ->
  Inv {| w_heap := h; w_str := hupd d o (w_str w) |} (put_seq d s g).
Proof.
  intros (A & B & C & D) H1 H2 H3 H4 H5. split; [|split; [|split]]; cbn [w_heap w_str].
  - intros i. destruct (Nat.eq_dec i d) as [->|N].
    + now rewrite hupd_eq, put_seq_eq.
    + rewrite hupd_neq, put_seq_neq by easy. eapply srep_frame; [|apply A].
      intros b E. now apply (H1 i).
  - intros i j b. destruct (Nat.eq_dec i d) as [->|Ni]; destruct (Nat.eq_dec j d) as [->|Nj];
      rewrite ?hupd_eq; rewrite ?hupd_neq by easy; intros E1 E2.
    + easy.
    + exfalso. exact (H3 j b Nj E1 E2).
    + exfalso. exact (H3 i b Ni E2 E1).
    + eauto.
  - exact H4.
  - intros b Nb. destruct (H5 b Nb) as [E|(j & Nj & E)].
    + exists d. now rewrite hupd_eq.
    + exists j. now rewrite hupd_neq by easy.
Qed.

(** A step that writes the block of [d] only. *)
Lemma inv_write w g d b c o s :
  Inv w g -> s_data (w_str w d) = Some b -> s_data o = Some b ->
  srep (set_blk b (Some c) (w_heap w)) o s ->
  Inv {| w_heap := set_blk b (Some c) (w_heap w); w_str := hupd d o (w_str w) |} (put_seq d s g).
Proof.
  intros I Ed Eo R. pose proof I as (A & B & C & D). apply inv_update; auto.
  - intros j b' N E. rewrite set_blk_neq; [easy|]. intros ->. apply N. eauto.
  - intros j b' N E1 E2. rewrite Eo in E1. injection E1 as <-. apply N. eauto.
  - intros b' L. cbn in L. rewrite set_blk_neq; [auto|].
    pose proof (inv_lt _ _ _ _ I Ed). lia.
  - intros b' Nb. destruct (Nat.eq_dec b' b) as [->|N]; [now left|].
    rewrite set_blk_neq in Nb by easy. right. destruct (D b' Nb) as (j & Ej).
    exists j. split; [|exact Ej]. intros ->. congruence.
Qed.

(** The object is given a fresh block, and its old block is freed. *)
Lemma inv_fresh w g d h1 h2 o s :
  Inv w g ->
  s_data o = Some (nxt (w_heap w)) ->
  nxt h1 = S (nxt (w_heap w)) ->
  (forall b, b <> nxt (w_heap w) -> blk h1 b = blk (w_heap w) b) ->
  free (s_data (w_str w d)) h1 = Some h2 ->
  srep h1 o s ->
  Inv {| w_heap := h2; w_str := hupd d o (w_str w) |} (put_seq d s g).
Proof.
  intros I Eo Hn Hb F R. pose proof I as (A & B & C & D).
  assert (F' : nxt h2 = nxt h1 /\
    forall b, blk h2 b = if match s_data (w_str w d) with
                            | Some p => (b =? p)%nat | None => false end then None else blk h1 b).
  { unfold free in F. destruct (s_data (w_str w d)) as [p|].
    - destruct (blk h1 p); [|easy]. injection F as <-. split; [easy|]. intros b.
      unfold set_blk, hupd. cbn. now destruct (b =? p)%nat.
    - injection F as <-. easy. }
  destruct F' as (F1 & F2).
  assert (Fo : forall b, s_data (w_str w d) <> Some b -> blk h2 b = blk h1 b).
  { intros b N. rewrite F2. destruct (s_data (w_str w d)) as [p|]; [|easy].
    destruct (Nat.eqb_spec b p) as [->|_]; [congruence|easy]. }
  apply inv_update; auto.
  - intros j b N E. rewrite Fo.
    + apply Hb. pose proof (inv_lt _ _ _ _ I E). lia.
    + intros E2. apply N. eauto.
  - apply (srep_frame h1); [|exact R]. intros b E. rewrite Eo in E. injection E as <-.
    apply Fo. intros E. pose proof (inv_lt _ _ _ _ I E). lia.
  - intros j b N E1 E2. rewrite Eo in E1. injection E1 as <-.
    pose proof (inv_lt _ _ _ _ I E2). lia.
  - intros b L. rewrite F1, Hn in L. rewrite F2.
    destruct (match s_data (w_str w d) with Some p => (b =? p)%nat | None => false end); [easy|].
    rewrite Hb by lia. apply C. lia.
  - intros b Nb. destruct (Nat.eq_dec b (nxt (w_heap w))) as [->|N]; [now left|]. right.
    assert (N2 : s_data (w_str w d) <> Some b).
    { intros E. rewrite F2, E, Nat.eqb_refl in Nb. congruence. }
    rewrite Fo in Nb by easy. rewrite Hb in Nb by easy.
    destruct (D b Nb) as (j & Ej). exists j. split; [|exact Ej]. intros ->. congruence.
Qed.

Definition same_but (d : nat) (w w' : world) : Prop :=
  forall j, j <> d -> w_str w' j = w_str w j.

Lemma same_but_refl d w : same_but d w w.
Proof. easy. Qed.

Lemma same_but_trans d w1 w2 w3 : same_but d w1 w2 -> same_but d w2 w3 -> same_but d w1 w3.
Proof. intros A B j N. rewrite B, A; easy. Qed.

Lemma put_seq_self d g i : put_seq d (g d) g i = g i.
Proof. unfold put_seq. destruct (Nat.eqb_spec i d) as [->|_]; easy. Qed.

Lemma free_alive p h : (forall b, p = Some b -> blk h b <> None) -> exists h', free p h = Some h'.
Proof.
  intros A. unfold free. destruct p as [b|]; [|eauto]. specialize (A b eq_refl).
  destruct (blk h b); [eauto|congruence].
Qed.

Lemma map_some_repeat n : exists X, repeat (@None Z) n = X /\ length X = n.
Proof. eexists; split; [reflexivity|]. apply repeat_length. Qed.

Lemma grow_ok mg d n w g : Inv w g ->
  exists w', grow mg d n w = Some w' /\ Inv w' g /\ same_but d w w' /\
    (length (g d) + n <= s_cap (w_str w' d))%nat.
Proof.
  intros I. unfold grow. rewrite (inv_size _ _ d I).
  destruct (Nat.leb_spec (length (g d) + n) (s_cap (w_str w d))) as [L|L].
  { exists w. split; [easy|]. split; [exact I|]. split; [apply same_but_refl|exact L]. }
  set (needed := if (mg && _)%bool then _ else _).
  assert (Hneed : (length (g d) + n <= needed)%nat).
  { subst needed. destruct mg; cbn [andb]; [|lia].
    destruct (Nat.ltb_spec (length (g d) + n) (s_cap (w_str w d) * 2)); lia. }
  clearbody needed. unfold alloc. cbn beta iota zeta.
  set (b := nxt (w_heap w)).
  set (h0 := {| blk := _; nxt := _ |}).
  assert (H0 : blk h0 b = Some (map Some [] ++ repeat None (needed + 1))).
  { unfold h0. cbn [blk]. now rewrite hupd_eq. }
  assert (Ho : forall b', b' <> b -> blk h0 b' = blk (w_heap w) b').
  { intros b' N. unfold h0. cbn [blk]. now apply hupd_neq. }
  assert (M : exists h1, (if (length (g d) =? 0)%nat then Some h0
              else match s_data (w_str w d) with
                   | Some old => memcpy b 0 (Mem old 0) (length (g d)) h0
                   | None => None
                   end) = Some h1 /\ nxt h1 = S b /\
             blk h1 b = Some (map Some (g d) ++ repeat None (needed + 1 - length (g d))) /\
             forall b', b' <> b -> blk h1 b' = blk (w_heap w) b').
  { destruct (Nat.eqb_spec (length (g d)) 0) as [E|E].
    - exists h0. apply length_zero_iff_nil in E. rewrite E. cbn [length].
      rewrite Nat.sub_0_r. auto.
    - assert (Nn : s_cap (w_str w d) <> O).
      { destruct I as (A & _). pose proof (srep_le _ _ _ (A d)). lia. }
      destruct (inv_nonnull _ _ d I Nn) as (old & Eold). rewrite Eold.
      pose proof (inv_lt _ _ _ _ I Eold) as Lold.
      destruct (inv_block _ _ _ _ I Eold) as (r & Hr & _).
      unfold memcpy. destruct (Nat.eqb_spec old b) as [->|Nb]; [unfold b in Lold; lia|].
      cbn [andb]. rewrite (read_at_prefix h0 old (g d) (Some 0%Z :: r) 0 (length (g d)))
        by (rewrite ?Ho by easy; auto).
      cbn [skipn]. rewrite firstn_all.
      change 0%nat with (length (@nil Z)) at 1.
      rewrite (write_at_app h0 b [] (repeat None (needed + 1)) (g d) H0)
        by (rewrite repeat_length; lia).
      eexists. split; [reflexivity|]. split; [reflexivity|]. split.
      + rewrite set_blk_eq. cbn [app]. do 2 f_equal.
        clear. generalize (needed + 1)%nat as k. intros k. revert k.
        induction (length (g d)) as [|m IH]; intros k; cbn; [now rewrite Nat.sub_0_r|].
        destruct k as [|k]; cbn; [easy|]. apply IH.
      + intros b' N. rewrite set_blk_neq by easy. now apply Ho. }
  destruct M as (h1 & -> & Hn1 & Hb1 & Ho1). cbn [bind].
  rewrite (write_at_app h1 b (g d) _ [0%Z] Hb1) by (rewrite repeat_length; cbn; lia).
  cbn [bind].
  set (h2 := set_blk b _ h1).
  assert (F : exists h3, free (s_data (w_str w d)) h2 = Some h3).
  { apply free_alive. intros p E. unfold h2.
    pose proof (inv_lt _ _ _ _ I E). rewrite set_blk_neq by (unfold b; lia).
    rewrite Ho1 by (unfold b; lia). destruct (inv_block _ _ _ _ I E) as (r & -> & _). easy. }
  destruct F as (h3 & F). rewrite F. cbn [bind].
  eexists. split; [reflexivity|]. split; [|split].
  - apply (inv_ext _ (put_seq d (g d) g)); [apply put_seq_self|].
    eapply (inv_fresh w g d h2 h3); eauto.
    + intros b' N. unfold h2. rewrite set_blk_neq by easy. now apply Ho1.
    + unfold srep. cbn [s_data s_size s_cap].
      exists (repeat None (needed - length (g d))). split; [|split; [|easy]].
      * unfold h2. rewrite set_blk_eq. rewrite map_app, <- app_assoc.
        replace (needed + 1 - length (g d))%nat with (S (needed - length (g d))) by lia.
        reflexivity.
      * rewrite repeat_length. lia.
  - intros j N. cbn [w_str]. now apply hupd_neq.
  - cbn [w_str]. rewrite hupd_eq. cbn. exact Hneed.
Qed.

(** What [put_unchecked] reads. *)
Definition reads (w : world) (g : seqs) (d : nat) (s : src) (l : list Z) : Prop :=
  match s with
  | Const l' => l = firstn (length l) l'
  | Mem b off => read_at b off (length l) (w_heap w) = Some l /\
                 (s_data (w_str w d) <> Some b \/ (off + length l <= length (g d))%nat)
  end.

Lemma put_unchecked_ok d s l w g : Inv w g ->
  (length (g d) + length l <= s_cap (w_str w d))%nat ->
  reads w g d s l ->
  exists w', put_unchecked d s (length l) w = Some w' /\
    Inv w' (put_seq d (g d ++ l) g) /\ same_but d w w' /\
    s_cap (w_str w' d) = s_cap (w_str w d) /\ s_data (w_str w' d) = s_data (w_str w d).
Proof.
  intros I Hc R. unfold put_unchecked.
  destruct (Nat.eqb_spec (length l) 0) as [E|E].
  { apply length_zero_iff_nil in E. subst l. exists w. split; [easy|]. split.
    - eapply inv_ext; [|exact I]. intros i. rewrite app_nil_r. symmetry. apply put_seq_self.
    - split; [apply same_but_refl|easy]. }
  destruct (inv_nonnull _ _ d I) as (b & Eb); [lia|]. rewrite Eb.
  destruct (inv_block _ _ _ _ I Eb) as (r & Hb & Hr).
  rewrite (inv_size _ _ d I).
  assert (M : memcpy b (length (g d)) s (length l) (w_heap w) =
              write_at b (length (g d)) l (w_heap w)).
  { unfold memcpy. destruct s as [l'|b' off]; cbn in R.
    - assert (Hl : (length l <= length l')%nat).
      { rewrite R at 1. rewrite firstn_length. lia. }
      apply Nat.leb_le in Hl. now rewrite Hl, <- R.
    - destruct R as (R1 & R2). rewrite R1.
      destruct (Nat.eqb_spec b' b) as [->|N]; cbn [andb]; [|easy].
      destruct R2 as [R2|R2]; [congruence|].
      destruct (Nat.ltb_spec (length (g d)) (off + length l)); [lia|].
      now rewrite andb_false_r. }
  rewrite M. rewrite (write_at_app _ _ _ _ l Hb) by (cbn [length]; lia). cbn [bind].
  destruct l as [|z l]; [easy|]. cbn [length skipn].
  set (L := z :: l) in *.
  destruct (skipn (length l) r) as [|x X] eqn:EX.
  { (* room for the terminator *)
    exfalso. apply (f_equal (@length _)) in EX. rewrite skipn_length in EX.
    cbn in EX. unfold L in Hc. cbn [length] in Hc. lia. }
  set (h1 := set_blk b _ _).
  assert (Hb1 : blk h1 b = Some (map Some (g d ++ L) ++ x :: X)).
  { unfold h1. now rewrite set_blk_eq. }
  replace (length (g d) + S (length l))%nat with (length (g d ++ L))
    by (rewrite app_length; reflexivity).
  rewrite (write_at_app h1 b (g d ++ L) (x :: X) [0%Z] Hb1) by (cbn; lia).
  cbn [bind].
  eexists. split; [reflexivity|]. split; [|split; [|split]].
  - pose proof I as (A & B & C & D). apply inv_update; auto.
    + intros j b' N E'. rewrite set_blk_neq; [|intros ->; apply N; eauto].
      unfold h1. rewrite set_blk_neq; [easy|]. intros ->. apply N. eauto.
    + unfold srep. cbn [s_data s_cap s_size]. exists X. split; [|split; [|easy]].
      * rewrite set_blk_eq. cbn [skipn length]. now rewrite map_app, <- app_assoc.
      * apply (f_equal (@length _)) in EX. rewrite skipn_length in EX.
        cbn in EX. rewrite app_length. cbn [length] in *. unfold L. cbn [length]. lia.
    + intros j b' N E1 E2. cbn in E1. injection E1 as <-. apply N. eauto.
    + intros b' Lb. cbn in Lb. pose proof (inv_lt _ _ _ _ I Eb).
      rewrite set_blk_neq by lia. unfold h1. rewrite set_blk_neq by lia. auto.
    + intros b' Nb. destruct (Nat.eq_dec b' b) as [->|N]; [now left|]. right.
      rewrite set_blk_neq in Nb by easy. unfold h1 in Nb. rewrite set_blk_neq in Nb by easy.
      destruct (D b' Nb) as (j & Ej). exists j. split; [|exact Ej]. intros ->. congruence.
  - intros j N. cbn [w_str]. now apply hupd_neq.
  - cbn [w_str]. now rewrite hupd_eq.
  - cbn [w_str]. rewrite hupd_eq. easy.
Qed.
