(** Proofs about the vectors of [Nst_Model]. *)

From Verif Require Import Base Nst_Model Nst_Spec Nst_Heap.

#[local] Ltac Zify.zify_post_hook ::= idtac.

Definition vrep (h : heap) (o : vobj) (s : list Z) : Prop :=
  match v_data o with
  | None => s = [] /\ v_cap o = O /\ v_size o = O
  | Some b => exists rest, blk h b = Some (map Some s ++ rest) /\
                (length s + length rest)%nat = v_cap o /\ v_size o = length s
  end.

Definition VInv (w : vworld) (g : seqs) : Prop :=
  (forall i, vrep (vw_heap w) (vw_vec w i) (g i)) /\
  (forall i j b, v_data (vw_vec w i) = Some b -> v_data (vw_vec w j) = Some b -> i = j) /\
  (forall b, (nxt (vw_heap w) <= b)%nat -> blk (vw_heap w) b = None) /\
  (forall b, blk (vw_heap w) b <> None -> exists i, v_data (vw_vec w i) = Some b).

Lemma vinv_ext w g g' : (forall i, g i = g' i) -> VInv w g -> VInv w g'.
Proof. intros E (A & B). split; [|exact B]. intros i. rewrite <- E. apply A. Qed.

Lemma vinv_size w g i : VInv w g -> v_size (vw_vec w i) = length (g i).
Proof.
  intros (A & _). specialize (A i). unfold vrep in A. destruct (v_data (vw_vec w i)).
  - destruct A as (r & _ & _ & A). exact A.
  - destruct A as (-> & _ & A). exact A.
Qed.

Lemma vinv_block w g i b : VInv w g -> v_data (vw_vec w i) = Some b ->
  exists rest, blk (vw_heap w) b = Some (map Some (g i) ++ rest) /\
    (length (g i) + length rest)%nat = v_cap (vw_vec w i).
Proof.
  intros (A & _) E. specialize (A i). unfold vrep in A. rewrite E in A.
  destruct A as (r & A1 & A2 & _). eauto.
Qed.

Lemma vinv_null w g i : VInv w g -> v_data (vw_vec w i) = None ->
  g i = [] /\ v_cap (vw_vec w i) = O.
Proof.
  intros (A & _) E. specialize (A i). unfold vrep in A. rewrite E in A. easy.
Qed.

Lemma vinv_lt w g i b : VInv w g -> v_data (vw_vec w i) = Some b -> (b < nxt (vw_heap w))%nat.
Proof.
  intros I E. destruct (vinv_block _ _ _ _ I E) as (r & Hb & _).
  destruct I as (_ & _ & C & _).
  destruct (Nat.lt_ge_cases b (nxt (vw_heap w))) as [L|L]; [exact L|].
  rewrite (C b L) in Hb. discriminate.
Qed.

Lemma vinv_le w g i : VInv w g -> (length (g i) <= v_cap (vw_vec w i))%nat.
Proof.
  intros I. destruct (v_data (vw_vec w i)) as [b|] eqn:E.
  - destruct (vinv_block _ _ _ _ I E) as (r & _ & H). lia.
  - destruct (vinv_null _ _ _ I E) as (-> & _). cbn. lia.
Qed.

Lemma vrep_frame h h' o s :
  (forall b, v_data o = Some b -> blk h' b = blk h b) -> vrep h o s -> vrep h' o s.
Proof.
  unfold vrep. destruct (v_data o) as [b|]; [|auto]. intros E. now rewrite (E b eq_refl).
Qed.

Lemma vinv_update w g d o s h :
  VInv w g ->
  (forall j b, j <> d -> v_data (vw_vec w j) = Some b -> blk h b = blk (vw_heap w) b) ->
  vrep h o s ->
  (forall j b, j <> d -> v_data o = Some b -> v_data (vw_vec w j) <> Some b) ->
  (forall b, (nxt h <= b)%nat -> blk h b = None) ->
  (forall b, blk h b <> None ->
     v_data o = Some b \/ exists j, j <> d /\ v_data (vw_vec w j) = Some b) ->
  VInv {| vw_heap := h; vw_vec := hupd d o (vw_vec w) |} (put_seq d s g).
Proof.
  intros (A & B & C & D) H1 H2 H3 H4 H5. split; [|split; [|split]]; cbn [vw_heap vw_vec].
  - intros i. destruct (Nat.eq_dec i d) as [->|N].
    + now rewrite hupd_eq, put_seq_eq.
    + rewrite hupd_neq, put_seq_neq by easy. eapply vrep_frame; [|apply A].
      intros b E. now apply (H1 i).
  - intros i j b. destruct (Nat.eq_dec i d) as [->|Ni]; destruct (Nat.eq_dec j d) as [->|Nj];
      rewrite ?hupd_eq; rewrite ?hupd_neq by easy; intros E1 E2.
    + easy.
    + exfalso. exact (H3 j b Nj E1 E2).
    + exfalso. exact (H3 i b Ni E2 E1).
    + eauto.
  - exact H4.
  - intros b Nb. destruct (H5 b Nb) as [E|(j & Nj & E)].
    + exists d. now rewrite hupd_eq.
    + exists j. now rewrite hupd_neq by easy.
Qed.

(** A step that changes the block of [d] only. *)
Lemma vinv_inplace w g d b h o s :
  VInv w g -> v_data (vw_vec w d) = Some b -> v_data o = Some b ->
  (forall b', b' <> b -> blk h b' = blk (vw_heap w) b') -> nxt h = nxt (vw_heap w) ->
  vrep h o s ->
  VInv {| vw_heap := h; vw_vec := hupd d o (vw_vec w) |} (put_seq d s g).
Proof.
  intros I Ed Eo Hb Hn R. pose proof I as (A & B & C & D). apply vinv_update; auto.
  - intros j b' N E. apply Hb. intros ->. apply N. eauto.
  - intros j b' N E1 E2. rewrite Eo in E1. injection E1 as <-. apply N. eauto.
  - intros b' L. rewrite Hn in L. pose proof (vinv_lt _ _ _ _ I Ed). rewrite Hb by lia. auto.
  - intros b' Nb. destruct (Nat.eq_dec b' b) as [->|N]; [now left|].
    rewrite Hb in Nb by easy. right. destruct (D b' Nb) as (j & Ej).
    exists j. split; [|exact Ej]. intros ->. congruence.
Qed.

(** The object is given a fresh block, and its old block is freed. *)
Lemma vinv_fresh w g d h1 h2 o s :
  VInv w g ->
  v_data o = Some (nxt (vw_heap w)) ->
  nxt h1 = S (nxt (vw_heap w)) ->
  (forall b, b <> nxt (vw_heap w) -> blk h1 b = blk (vw_heap w) b) ->
  free (v_data (vw_vec w d)) h1 = Some h2 ->
  vrep h1 o s ->
  VInv {| vw_heap := h2; vw_vec := hupd d o (vw_vec w) |} (put_seq d s g).
Proof.
  intros I Eo Hn Hb F R. pose proof I as (A & B & C & D).
  assert (F' : nxt h2 = nxt h1 /\
    forall b, blk h2 b = if match v_data (vw_vec w d) with
                            | Some p => (b =? p)%nat | None => false end then None else blk h1 b).
  { unfold free in F. destruct (v_data (vw_vec w d)) as [p|].
    - destruct (blk h1 p); [|easy]. injection F as <-. split; [easy|]. intros b.
      unfold set_blk, hupd. cbn. now destruct (b =? p)%nat.
    - injection F as <-. easy. }
  destruct F' as (F1 & F2).
  assert (Fo : forall b, v_data (vw_vec w d) <> Some b -> blk h2 b = blk h1 b).
  { intros b N. rewrite F2. destruct (v_data (vw_vec w d)) as [p|]; [|easy].
    destruct (Nat.eqb_spec b p) as [->|_]; [congruence|easy]. }
  apply vinv_update; auto.
  - intros j b N E. rewrite Fo.
    + apply Hb. pose proof (vinv_lt _ _ _ _ I E). lia.
    + intros E2. apply N. eauto.
  - apply (vrep_frame h1); [|exact R]. intros b E. rewrite Eo in E. injection E as <-.
    apply Fo. intros E. pose proof (vinv_lt _ _ _ _ I E). lia.
  - intros j b N E1 E2. rewrite Eo in E1. injection E1 as <-.
    pose proof (vinv_lt _ _ _ _ I E2). lia.
  - intros b L. rewrite F1, Hn in L. rewrite F2.
    destruct (match v_data (vw_vec w d) with Some p => (b =? p)%nat | None => false end); [easy|].
    rewrite Hb by lia. apply C. lia.
  - intros b Nb. destruct (Nat.eq_dec b (nxt (vw_heap w))) as [->|N]; [now left|]. right.
    assert (N2 : v_data (vw_vec w d) <> Some b).
    { intros E. rewrite F2, E, Nat.eqb_refl in Nb. congruence. }
    rewrite Fo in Nb by easy. rewrite Hb in Nb by easy.
    destruct (D b Nb) as (j & Ej). exists j. split; [|exact Ej]. intros ->. congruence.
Qed.

Definition vsame (d : nat) (w w' : vworld) : Prop := forall j, j <> d -> vw_vec w' j = vw_vec w j.

Lemma vput_self d g i : put_seq d (g d) g i = g i.
Proof. unfold put_seq. destruct (Nat.eqb_spec i d) as [->|_]; easy. Qed.

(** A fresh block with a copy of the elements of [j]. *)
Lemma copy_fresh w g j n : VInv w g -> (length (g j) <= n)%nat ->
  exists h, (match v_data (vw_vec w j) with
             | Some c => copy_elems (nxt (vw_heap w)) c 0 (length (g j)) (snd (alloc n (vw_heap w)))
             | None => if (length (g j) =? 0)%nat then Some (snd (alloc n (vw_heap w))) else None
             end) = Some h /\
    nxt h = S (nxt (vw_heap w)) /\
    (forall b, b <> nxt (vw_heap w) -> blk h b = blk (vw_heap w) b) /\
    exists rest, blk h (nxt (vw_heap w)) = Some (map Some (g j) ++ rest) /\
      (length (g j) + length rest)%nat = n.
Proof.
  intros I Hn. set (b := nxt (vw_heap w)). set (h0 := snd (alloc n (vw_heap w))).
  assert (H0 : blk h0 b = Some (map Some [] ++ repeat None n)).
  { unfold h0. cbn. now rewrite hupd_eq. }
  assert (Ho : forall b', b' <> b -> blk h0 b' = blk (vw_heap w) b').
  { intros b' N. unfold h0. cbn. now apply hupd_neq. }
  destruct (v_data (vw_vec w j)) as [c|] eqn:Ec.
  - pose proof (vinv_lt _ _ _ _ I Ec) as Lc. destruct (vinv_block _ _ _ _ I Ec) as (r & Hr & _).
    destruct (copy_elems_app (length (g j)) h0 b c [] (repeat None n) (g j) r) as (h & E1 & E2 & E3 & E4).
    + unfold b. lia.
    + exact H0.
    + rewrite Ho by (unfold b; lia). exact Hr.
    + now rewrite repeat_length.
    + cbn. lia.
    + exists h. split; [exact E1|]. split; [rewrite E4; reflexivity|]. split.
      * intros b' N. rewrite E3, Ho by easy. easy.
      * cbn [length skipn app] in E2. rewrite firstn_all in E2. eexists. split; [exact E2|].
        rewrite skipn_length, repeat_length. lia.
  - destruct (vinv_null _ _ _ I Ec) as (Hz & _). rewrite Hz in *. cbn [length Nat.eqb].
    exists h0. split; [easy|]. split; [easy|]. split; [exact Ho|].
    exists (repeat None n). split; [exact H0|]. cbn. now rewrite repeat_length.
Qed.

Lemma vfree_alive p h : (forall b, p = Some b -> blk h b <> None) -> exists h', free p h = Some h'.
Proof.
  intros A. unfold free. destruct p as [b|]; [|eauto]. specialize (A b eq_refl).
  destruct (blk h b); [eauto|congruence].
Qed.

Lemma vreserve_ok d n w g : VInv w g ->
  exists w', vreserve d n w = Some w' /\ VInv w' g /\ vsame d w w' /\
    (n <= v_cap (vw_vec w' d))%nat /\ (v_cap (vw_vec w d) <= v_cap (vw_vec w' d))%nat /\
    ((n <= v_cap (vw_vec w d))%nat -> w' = w) /\
    ((v_cap (vw_vec w d) < n)%nat -> forall b, v_data (vw_vec w d) = Some b ->
       blk (vw_heap w') b = None).
Proof.
  intros I. unfold vreserve. destruct (Nat.leb_spec n (v_cap (vw_vec w d))) as [L|L].
  { exists w. repeat (split; [easy|]). intros H. exfalso. lia. }
  pose proof (vinv_le _ _ d I) as Hle. rewrite (vinv_size _ _ d I).
  destruct (copy_fresh w g d n I) as (h1 & E1 & E2 & E3 & rest & E4 & E5); [lia|].
  change (alloc n (vw_heap w)) with (nxt (vw_heap w), snd (alloc n (vw_heap w))).
  cbn beta iota zeta. rewrite E1. cbn [bind].
  destruct (vfree_alive (v_data (vw_vec w d)) h1) as (h2 & F).
  { intros b Eb. pose proof (vinv_lt _ _ _ _ I Eb). rewrite E3 by lia.
    destruct (vinv_block _ _ _ _ I Eb) as (r & -> & _). easy. }
  rewrite F. cbn [bind]. eexists. split; [reflexivity|]. split; [|split; [|split; [|split; [|split]]]].
  - apply (vinv_ext _ (put_seq d (g d) g)); [apply vput_self|].
    eapply (vinv_fresh w g d h1 h2); eauto. unfold vrep. cbn [v_data v_cap v_size].
    exists rest. auto.
  - intros j N. cbn [vw_vec]. now apply hupd_neq.
  - cbn [vw_vec]. rewrite hupd_eq. cbn. lia.
  - cbn [vw_vec]. rewrite hupd_eq. cbn. lia.
  - lia.
  - intros _ b Eb. cbn [vw_heap]. unfold free in F. rewrite Eb in F.
    destruct (blk h1 b); [|easy]. injection F as <-. apply set_blk_eq.
Qed.

Lemma v_addr_ok w g a z : VInv w g -> varg_val g a = Some z ->
  exists p, v_addr w a = Some p /\ v_load p (vw_heap w) = Some z.
Proof.
  intros I. destruct a as [z'|j i]; cbn.
  - intros E. injection E as <-. exists (Const [z']). easy.
  - intros E. assert (Li : (i < length (g j))%nat) by (apply nth_error_Some; congruence).
    destruct (v_data (vw_vec w j)) as [b|] eqn:Eb.
    + destruct (vinv_block _ _ _ _ I Eb) as (r & Hr & _).
      exists (Mem b i). split; [easy|]. cbn.
      rewrite (read_at_prefix _ _ _ _ i 1 Hr) by lia.
      rewrite <- (firstn_skipn i (g j)) in E.
      rewrite nth_error_app2 in E by (rewrite firstn_length; lia).
      rewrite firstn_length, Nat.min_l, Nat.sub_diag in E by lia.
      destruct (skipn i (g j)) as [|x l]; [easy|]. cbn in E |- *. now injection E as ->.
    + destruct (vinv_null _ _ _ I Eb) as (Hz & _). rewrite Hz in Li. cbn in Li. lia.
Qed.

(** Storing one element behind the last. *)
Lemma vappend d z w g : VInv w g -> (length (g d) < v_cap (vw_vec w d))%nat ->
  exists b h, v_data (vw_vec w d) = Some b /\
    write_at b (length (g d)) [z] (vw_heap w) = Some h /\
    VInv {| vw_heap := h; vw_vec := hupd d {| v_data := Some b; v_size := S (length (g d));
                                              v_cap := v_cap (vw_vec w d) |} (vw_vec w) |}
         (put_seq d (g d ++ [z]) g).
Proof.
  intros I Hc. destruct (v_data (vw_vec w d)) as [b|] eqn:Eb.
  2: { destruct (vinv_null _ _ _ I Eb) as (_ & Hz). lia. }
  destruct (vinv_block _ _ _ _ I Eb) as (r & Hr & Hl).
  exists b. eexists. split; [easy|].
  rewrite (write_at_app _ _ _ _ [z] Hr) by (cbn; lia). split; [reflexivity|].
  eapply vinv_inplace; eauto.
  - intros b' N. now apply set_blk_neq.
  - unfold vrep. cbn [v_data v_cap v_size]. eexists. split; [apply set_blk_eq|].
    rewrite app_length, skipn_length. cbn [length]. lia.
Qed.

Lemma vpush_ok d a z w g : VInv w g -> varg_val g a = Some z ->
  match a with VElem j _ => j <> d \/ (length (g d) < v_cap (vw_vec w d))%nat | _ => True end ->
  exists w', vpush d a w = Some w' /\ VInv w' (put_seq d (g d ++ [z]) g) /\ vsame d w w'.
Proof.
  intros I Ha Hok. unfold vpush. rewrite (vinv_size _ _ d I).
  destruct (v_addr_ok w g a z I Ha) as (p & Ep & El). rewrite Ep. cbn [bind].
  pose proof (vinv_le _ _ d I) as Hle.
  assert (X : exists w1, (if (length (g d) =? v_cap (vw_vec w d))%nat then vexpand d w else Some w)
     = Some w1 /\ VInv w1 g /\ vsame d w w1 /\ (length (g d) < v_cap (vw_vec w1 d))%nat /\
     v_load p (vw_heap w1) = Some z).
  { destruct (Nat.eqb_spec (length (g d)) (v_cap (vw_vec w d))) as [E|E].
    - unfold vexpand.
      destruct (vreserve_ok d (if v_cap (vw_vec w d) =? 0 then 1 else v_cap (vw_vec w d) * 2)%nat w g I)
        as (w1 & E1 & I1 & S1 & C1 & _).
      exists w1. split; [exact E1|]. split; [exact I1|]. split; [exact S1|]. split.
      + destruct (Nat.eqb_spec (v_cap (vw_vec w d)) 0); lia.
      + destruct a as [z'|j i].
        * cbn in Ep. injection Ep as <-. exact El.
        * destruct Hok as [N|H]; [|lia].
          destruct (v_addr_ok w1 g (VElem j i) z I1 Ha) as (p' & Ep' & El').
          cbn in Ep, Ep'. rewrite S1 in Ep' by easy. congruence.
    - exists w. split; [easy|]. split; [exact I|]. split; [easy|]. split; [lia|exact El]. }
  destruct X as (w1 & -> & I1 & S1 & C1 & L1). cbn [bind].
  rewrite (vinv_size _ _ d I1).
  destruct (vappend d z w1 g I1 C1) as (b & h & Eb & Ew & I2). rewrite Eb, L1. cbn [bind].
  rewrite Ew. cbn [bind]. eexists. split; [reflexivity|]. split; [exact I2|].
  intros j N. cbn [vw_vec]. rewrite hupd_neq by easy. now apply S1.
Qed.

(** Appending an own element when the storage is full. *)
Lemma vpush_own_undefined d i w g : VInv w g -> (i < length (g d))%nat ->
  length (g d) = v_cap (vw_vec w d) -> vpush d (VElem d i) w = None.
Proof.
  intros I Hi Hc. unfold vpush. rewrite (vinv_size _ _ d I). cbn [v_addr].
  destruct (v_data (vw_vec w d)) as [b|] eqn:Eb.
  2: { destruct (vinv_null _ _ _ I Eb) as (Hz & _). rewrite Hz in Hi. cbn in Hi. lia. }
  cbn [bind]. rewrite Hc, Nat.eqb_refl. unfold vexpand.
  destruct (vreserve_ok d (if v_cap (vw_vec w d) =? 0 then 1 else v_cap (vw_vec w d) * 2)%nat w g I)
    as (w1 & E1 & I1 & S1 & C1 & _ & _ & F1).
  rewrite E1. cbn [bind]. destruct (v_data (vw_vec w1 d)) as [b1|]; [|easy].
  cbn [v_load]. unfold read_at. rewrite F1; auto.
  destruct (Nat.eqb_spec (v_cap (vw_vec w d)) 0); lia.
Qed.

Lemma vpop_ok d w g : VInv w g -> g d <> [] ->
  exists w', vpop d w = Some w' /\ VInv w' (put_seq d (removelast (g d)) g).
Proof.
  intros I Nd. unfold vpop. rewrite (vinv_size _ _ d I).
  destruct (exists_last Nd) as (l & z & El). rewrite El, app_length. cbn [length].
  rewrite Nat.add_1_r. eexists. split; [reflexivity|]. rewrite removelast_last.
  destruct (v_data (vw_vec w d)) as [b|] eqn:Eb.
  2: { destruct (vinv_null _ _ _ I Eb) as (Hz & _). congruence. }
  destruct (vinv_block _ _ _ _ I Eb) as (r & Hr & Hl). unfold set_vec.
  eapply vinv_inplace; eauto.
  unfold vrep. cbn [v_data v_cap v_size]. exists (Some z :: r). split; [|split; [|easy]].
  - rewrite Hr, El, map_app, <- app_assoc. reflexivity.
  - rewrite El, app_length in Hl. cbn [length] in *. lia.
Qed.

Lemma vclear_ok d w g : VInv w g ->
  exists w', vclear d w = Some w' /\ VInv w' (put_seq d [] g).
Proof.
  intros I. unfold vclear, set_vec. eexists. split; [reflexivity|].
  destruct (v_data (vw_vec w d)) as [b|] eqn:Eb.
  - destruct (vinv_block _ _ _ _ I Eb) as (r & Hr & Hl).
    eapply vinv_inplace; eauto.
    unfold vrep. cbn [v_data v_cap v_size]. exists (map Some (g d) ++ r). split; [exact Hr|].
    rewrite app_length, map_length. auto.
  - pose proof I as (A & B & C & D). destruct (vinv_null _ _ _ I Eb) as (_ & Hz).
    apply vinv_update; auto.
    + unfold vrep. cbn. auto.
    + cbn. discriminate.
    + intros b Nb. destruct (D b Nb) as (j & Ej). right. exists j. split; [|exact Ej].
      intros ->. congruence.
Qed.

Lemma vresize_ok d n a z w g : VInv w g -> varg_val g a = Some z ->
  exists w', vresize d n a w = Some w' /\
    VInv w' (put_seq d (firstn n (g d) ++ repeat z (n - length (g d))) g).
Proof.
  intros I0 Ha. unfold vresize.
  destruct (v_addr_ok w g a z I0 Ha) as (p & Ep & El). rewrite Ep. cbn [bind]. rewrite El.
  cbn [bind].
  destruct (vreserve_ok d n w g I0) as (w1 & E1 & I & S1 & C1 & _). rewrite E1. cbn [bind].
  rewrite (vinv_size _ _ d I).
  destruct (v_data (vw_vec w1 d)) as [b|] eqn:Eb.
  - destruct (vinv_block _ _ _ _ I Eb) as (r & Hr & Hl).
    destruct (Nat.ltb_spec n (length (g d))) as [L|L].
    + cbn [bind]. eexists. split; [reflexivity|].
      replace (n - length (g d))%nat with O by lia. cbn [repeat]. rewrite app_nil_r.
      eapply vinv_inplace; eauto.
      unfold vrep. cbn [v_data v_cap v_size].
      exists (map Some (skipn n (g d)) ++ r). split; [|split].
      * rewrite Hr, app_assoc, <- map_app, firstn_skipn. reflexivity.
      * rewrite firstn_length, app_length, map_length, skipn_length. lia.
      * rewrite firstn_length. lia.
    + destruct (fill_app (n - length (g d)) (vw_heap w1) b (g d) r z Hr)
        as (h1 & F1 & F2 & F3 & F4); [lia|].
      rewrite F1. cbn [bind]. eexists. split; [reflexivity|].
      rewrite (firstn_all2 (g d)) by lia.
      eapply vinv_inplace; eauto.
      unfold vrep. cbn [v_data v_cap v_size]. eexists. split; [exact F2|].
      rewrite app_length, repeat_length, skipn_length. lia.
  - destruct (vinv_null _ _ _ I Eb) as (Hz & Hz2). rewrite Hz2 in C1.
    assert (n = O) as -> by lia. rewrite Hz. cbn [length Nat.ltb Nat.leb Nat.eqb bind firstn Nat.sub repeat app].
    eexists. split; [reflexivity|].
    pose proof I as (A & B & C & D). apply vinv_update; auto.
    + unfold vrep. cbn. auto.
    + cbn. discriminate.
    + intros b Nb. destruct (D b Nb) as (j & Ej). right. exists j. split; [|exact Ej].
      intros ->. congruence.
Qed.

Lemma vassign_ok d j w g : VInv w g ->
  exists w', vassign d j w = Some w' /\ VInv w' (put_seq d (g j) g).
Proof.
  intros I. unfold vassign. rewrite (vinv_size _ _ j I).
  destruct (copy_fresh w g j (length (g j)) I) as (h1 & E1 & E2 & E3 & rest & E4 & E5); [lia|].
  change (alloc (length (g j)) (vw_heap w))
    with (nxt (vw_heap w), snd (alloc (length (g j)) (vw_heap w))).
  cbn beta iota zeta. rewrite E1. cbn [bind].
  destruct (vfree_alive (v_data (vw_vec w d)) h1) as (h2 & F).
  { intros b Eb. pose proof (vinv_lt _ _ _ _ I Eb). rewrite E3 by lia.
    destruct (vinv_block _ _ _ _ I Eb) as (r & -> & _). easy. }
  rewrite F. cbn [bind]. eexists. split; [reflexivity|].
  eapply (vinv_fresh w g d h1 h2); eauto. unfold vrep. cbn [v_data v_cap v_size].
  exists rest. auto.
Qed.

Lemma vinv_pointwise h s s' g :
  (forall i, s i = s' i) -> VInv {| vw_heap := h; vw_vec := s |} g ->
  VInv {| vw_heap := h; vw_vec := s' |} g.
Proof.
  intros E (A & B & C & D). cbn in *. split; [|split; [|split]]; cbn.
  - intros i. rewrite <- E. apply A.
  - intros i j b. rewrite <- !E. apply B.
  - exact C.
  - intros b Nb. destruct (D b Nb) as (i & Ei). exists i. now rewrite <- E.
Qed.

Lemma vmove_ok d j w g : VInv w g ->
  exists w', vmove d j w = Some w' /\ VInv w' (put_seq j [] (put_seq d (g j) g)).
Proof.
  intros I. unfold vmove.
  destruct (vfree_alive (v_data (vw_vec w d)) (vw_heap w)) as (h & Hh).
  { intros b E. destruct (vinv_block _ _ _ _ I E) as (r & -> & _). easy. }
  rewrite Hh. cbn [bind]. eexists. split; [reflexivity|].
  assert (Hf : (forall b, v_data (vw_vec w d) <> Some b -> blk h b = blk (vw_heap w) b) /\
    (forall b, v_data (vw_vec w d) = Some b -> blk h b = None) /\ nxt h = nxt (vw_heap w)).
  { unfold free in Hh. destruct (v_data (vw_vec w d)) as [p|].
    - destruct (blk (vw_heap w) p) eqn:Ep; [|easy]. injection Hh as <-. split; [|split; [|easy]].
      + intros b N. apply set_blk_neq. congruence.
      + intros b E. injection E as <-. apply set_blk_eq.
    - injection Hh as <-. easy. }
  destruct Hf as (Hb & Hd & Hn).
  unfold set_vec. cbn [vw_heap vw_vec]. pose proof I as (A & B & C & D).
  split; [|split; [|split]]; cbn [vw_heap vw_vec].
  + intros i. destruct (Nat.eq_dec i j) as [->|Ni].
    { rewrite hupd_eq, put_seq_eq. now cbn. }
    rewrite hupd_neq, put_seq_neq by easy. destruct (Nat.eq_dec i d) as [->|Nd].
    * rewrite hupd_eq, put_seq_eq. eapply vrep_frame; [|apply A]. intros b E.
      apply Hb. intros E2. apply Ni. eauto.
    * rewrite hupd_neq, put_seq_neq by easy. eapply vrep_frame; [|apply A]. intros b E.
      apply Hb. intros E2. apply Nd. eauto.
  + intros i i' b.
    destruct (Nat.eq_dec i j) as [->|Ni]; [rewrite hupd_eq; discriminate|].
    destruct (Nat.eq_dec i' j) as [->|Ni']; [rewrite (hupd_eq j); discriminate|].
    rewrite !(hupd_neq j) by easy.
    destruct (Nat.eq_dec i d) as [->|Nd]; destruct (Nat.eq_dec i' d) as [->|Nd'];
      rewrite ?hupd_eq; rewrite ?hupd_neq by easy; intros E1 E2; try easy.
    * exfalso. apply Ni'. eauto.
    * exfalso. apply Ni. eauto.
    * eauto.
  + intros b L. rewrite Hn in L.
    destruct (v_data (vw_vec w d)) as [p|] eqn:Ep.
    * destruct (Nat.eq_dec p b) as [->|Np]; [now apply Hd|]. rewrite Hb by congruence. auto.
    * rewrite Hb by congruence. auto.
  + intros b Nb.
    assert (Np : v_data (vw_vec w d) <> Some b) by (intros E; apply Nb; auto).
    rewrite Hb in Nb by easy. destruct (D b Nb) as (i & Ei).
    assert (Nd : i <> d) by (intros ->; congruence).
    destruct (Nat.eq_dec i j) as [->|Ni].
    * exists d. rewrite hupd_neq by congruence. now rewrite hupd_eq.
    * exists i. now rewrite !hupd_neq by easy.
Qed.

Lemma vswap_ok i j w g : VInv w g ->
  exists w', vswap i j w = Some w' /\ VInv w' (put_seq j (g i) (put_seq i (g j) g)).
Proof.
  intros (A & B & C & D). unfold vswap. eexists. split; [reflexivity|].
  unfold set_vec. cbn [vw_heap vw_vec].
  set (p := fun k => if (k =? j)%nat then i else if (k =? i)%nat then j else k).
  assert (W : forall k, hupd j (vw_vec w i) (hupd i (vw_vec w j) (vw_vec w)) k = vw_vec w (p k)).
  { intros k. unfold hupd, p. destruct (k =? j)%nat; [easy|]. now destruct (k =? i)%nat. }
  assert (G : forall k, put_seq j (g i) (put_seq i (g j) g) k = g (p k)).
  { intros k. unfold put_seq, p. destruct (k =? j)%nat; [easy|]. now destruct (k =? i)%nat. }
  assert (P : forall k, p (p k) = k).
  { intros k. unfold p. destruct (Nat.eqb_spec k j) as [->|N1].
    - rewrite Nat.eqb_refl. destruct (Nat.eqb_spec i j); congruence.
    - destruct (Nat.eqb_spec k i) as [->|N2].
      + now rewrite Nat.eqb_refl.
      + apply Nat.eqb_neq in N1, N2. now rewrite N1, N2. }
  split; [|split; [|split]]; cbn [vw_heap vw_vec].
  + intros k. rewrite W, G. apply A.
  + intros k k' b. rewrite !W. intros E1 E2. rewrite <- (P k), <- (P k'). f_equal. eauto.
  + exact C.
  + intros b Nb. destruct (D b Nb) as (k & Ek). exists (p k). now rewrite W, P.
Qed.

Lemma write_cells_set i z : forall (s : list Z) r, (i < length s)%nat ->
  write_cells i [z] (map Some s ++ r) = map Some (set_nth i z s) ++ r.
Proof.
  unfold write_cells. induction i as [|i IH]; intros s r Hi; destruct s as [|x s]; cbn in Hi; try lia.
  - reflexivity.
  - cbn [map app firstn set_nth]. f_equal. rewrite <- IH by lia. reflexivity.
Qed.

Lemma vset_ok d i a z w g : VInv w g -> varg_val g a = Some z -> (i < length (g d))%nat ->
  exists w', vset d i a w = Some w' /\ VInv w' (put_seq d (set_nth i z (g d)) g).
Proof.
  intros I Ha Hi. unfold vset.
  destruct (v_addr_ok w g a z I Ha) as (p & Ep & El). rewrite Ep. cbn [bind]. rewrite El.
  cbn [bind].
  destruct (v_data (vw_vec w d)) as [b|] eqn:Eb.
  2: { destruct (vinv_null _ _ _ I Eb) as (Hz & _). rewrite Hz in Hi. cbn in Hi. lia. }
  destruct (vinv_block _ _ _ _ I Eb) as (r & Hr & Hl).
  rewrite (write_at_some _ _ _ i [z] Hr) by (rewrite app_length, map_length; cbn [length]; lia).
  cbn [bind]. rewrite write_cells_set by easy. eexists. split; [reflexivity|].
  apply (vinv_pointwise _ (hupd d (vw_vec w d) (vw_vec w))).
  { intros k. unfold hupd. destruct (Nat.eqb_spec k d) as [->|_]; easy. }
  eapply vinv_inplace; eauto.
  - intros b' N. now apply set_blk_neq.
  - unfold vrep. rewrite Eb. exists r. rewrite set_nth_length. split; [apply set_blk_eq|].
    split; [exact Hl|]. now apply vinv_size.
Qed.

Lemma vstep_ok o w g g' : VInv w g -> v_ok o -> v_spec o g = Some g' ->
  exists w', vstep o w = Some w' /\ VInv w' g'.
Proof.
  intros I Ho. destruct o as [d a|d|d|d n|d n a|d j|d j|i j|d i a]; cbn [v_spec vstep].
  - destruct (varg_val g a) as [z|] eqn:Ea; [|easy]. intros E. injection E as <-.
    destruct (vpush_ok d a z w g I Ea) as (w' & E1 & E2 & _); eauto.
    destruct a; cbn in Ho; auto.
  - intros E. assert (Nd : g d <> []) by (intros E0; rewrite E0 in E; discriminate).
    assert (g' = put_seq d (removelast (g d)) g) as -> by (destruct (g d); congruence).
    now apply vpop_ok.
  - intros E. injection E as <-. now apply vclear_ok.
  - intros E. injection E as <-. destruct (vreserve_ok d n w g I) as (w' & E1 & E2 & _). eauto.
  - destruct (varg_val g a) as [z|] eqn:Ea; [|easy]. intros E. injection E as <-.
    now apply vresize_ok.
  - intros E. injection E as <-. now apply vassign_ok.
  - intros E. injection E as <-. now apply vmove_ok.
  - intros E. injection E as <-. now apply vswap_ok.
  - destruct (varg_val g a) as [z|] eqn:Ea; [|easy].
    destruct (Nat.ltb_spec i (length (g d))); [|easy]. intros E. injection E as <-.
    now apply vset_ok.
Qed.

Lemma vrun_ok : forall l w g g', VInv w g -> Forall v_ok l -> v_spec_all l g = Some g' ->
  exists w', vrun l w = Some w' /\ VInv w' g'.
Proof.
  induction l as [|o l IH]; intros w g g' I Ho Hs; cbn in *.
  - injection Hs as <-. eauto.
  - inversion Ho as [|? ? H1 H2]; subst. destruct (v_spec o g) as [g1|] eqn:E1; [|easy].
    destruct (vstep_ok o w g g1 I H1 E1) as (w1 & F1 & I1). rewrite F1. cbn [bind]. eauto.
Qed.

Lemma vinv0 : VInv vworld0 (fun _ => []).
Proof. split; [|split; [|split]]; cbn; try easy. Qed.

Lemma v_get_ok w g i : VInv w g -> v_get i w = Some (g i).
Proof.
  intros I. unfold v_get. rewrite (vinv_size _ _ i I). destruct (v_data (vw_vec w i)) as [b|] eqn:Eb.
  - destruct (vinv_block _ _ _ _ I Eb) as (r & Hr & _).
    rewrite (read_at_prefix _ _ _ _ 0 _ Hr) by lia. cbn [skipn]. now rewrite firstn_all.
  - destruct (vinv_null _ _ _ I Eb) as (-> & _). easy.
Qed.

Lemma vectors_ok l g : Forall v_ok l -> v_spec_all l (fun _ => []) = Some g ->
  exists w, vrun l vworld0 = Some w /\
    (forall i, v_get i w = Some (g i) /\ v_size (vw_vec w i) = length (g i) /\
       (length (g i) <= v_cap (vw_vec w i))%nat) /\
    (forall i j b, v_data (vw_vec w i) = Some b -> v_data (vw_vec w j) = Some b -> i = j) /\
    (forall b, blk (vw_heap w) b <> None -> exists i, v_data (vw_vec w i) = Some b).
Proof.
  intros Ho Hs. destruct (vrun_ok l vworld0 _ g vinv0 Ho Hs) as (w & E & I).
  exists w. split; [exact E|]. split; [|split; [apply I|apply I]].
  intros i. split; [now apply v_get_ok|]. split; [now apply vinv_size|now apply vinv_le].
Qed.

Lemma push_own_ok l g w d i : Forall v_ok l -> v_spec_all l (fun _ => []) = Some g ->
  vrun l vworld0 = Some w -> (i < length (g d))%nat ->
  if (v_size (vw_vec w d) <? v_cap (vw_vec w d))%nat
  then exists w', vpush d (VElem d i) w = Some w' /\
         v_get d w' = Some (g d ++ [nth i (g d) 0%Z]) /\
         forall j, j <> d -> v_get j w' = Some (g j)
  else vpush d (VElem d i) w = None.
Proof.
  intros Ho Hs E Hi. destruct (vrun_ok l vworld0 _ g vinv0 Ho Hs) as (w' & E' & I).
  rewrite E in E'. injection E' as <-. rewrite (vinv_size _ _ d I).
  destruct (Nat.ltb_spec (length (g d)) (v_cap (vw_vec w d))) as [L|L].
  - destruct (vpush_ok d (VElem d i) (nth i (g d) 0%Z) w g I) as (w1 & E1 & I1 & _); auto.
    { cbn. now apply nth_error_nth'. }
    exists w1. split; [exact E1|]. rewrite (v_get_ok _ _ d I1), put_seq_eq. split; [easy|].
    intros j N. now rewrite (v_get_ok _ _ j I1), put_seq_neq.
  - pose proof (vinv_le _ _ d I). eapply vpush_own_undefined; eauto. lia.
Qed.
