(** Programs over strings. *)

From Verif Require Import Base Nst_Model Nst_Spec Nst_Heap Nst_Str Nst_StrOps.

#[local] Ltac Zify.zify_post_hook ::= idtac.

Definition good (w : world) (g : seqs) : Prop :=
  Inv w g /\ w_str w 0%nat = snull /\ g 0%nat = [].

Lemma sstep_ok o w g : good w g -> s_ok g o ->
  exists w', sstep o w = Some w' /\ good w' (s_spec o g).
Proof.
  intros (I & Z0 & G0) Ho.
  destruct o as [d l|d a|d j|i j|d|d n|d n ch|d n|d a v|d a v|d a v]; cbn in Ho |- *.
  - destruct Ho as (Nd & A & N). destruct (put_ok d l w g I A N) as (w' & E & I' & S1).
    exists w'. split; [exact E|]. split; [exact I'|].
    rewrite put_seq_neq, S1 by congruence. easy.
  - destruct Ho as (Nd & A & N & Na). destruct (assign_ok d a w g I A N Na) as (w' & E & I' & S1).
    exists w'. split; [exact E|]. split; [exact I'|].
    rewrite put_seq_neq, S1 by congruence. easy.
  - destruct Ho as (Nd & Nj). destruct (move_ok d j w g I) as (w' & E & I' & M1 & _).
    exists w'. split; [exact E|]. split; [exact I'|].
    rewrite !put_seq_neq, M1 by congruence. easy.
  - destruct Ho as (Nd & Nj). destruct (swap_ok i j w g I) as (w' & E & I' & M1).
    exists w'. split; [exact E|]. split; [exact I'|].
    rewrite !put_seq_neq, M1 by congruence. easy.
  - destruct (clear_ok d w g I) as (w' & E & I' & S1 & _).
    exists w'. split; [exact E|]. split; [exact I'|].
    rewrite put_seq_neq, S1 by congruence. easy.
  - destruct (reserve_ok d n w g I) as (w' & E & I' & S1 & _).
    exists w'. split; [exact E|]. split; [exact I'|]. rewrite S1 by congruence. easy.
  - destruct (resize_ok d n ch w g I) as (w' & E & I' & S1).
    exists w'. split; [exact E|]. split; [exact I'|].
    rewrite put_seq_neq, S1 by congruence. easy.
  - destruct (indent_ok d n w g I) as (w' & E & I' & S1).
    exists w'. split; [exact E|]. split; [exact I'|].
    rewrite put_seq_neq, S1 by congruence. easy.
  - destruct Ho as (Nd & Na & Hv). destruct (plus_ok d a v w g) as (w' & E & I' & Z1 & _); auto.
    exists w'. split; [exact E|]. split; [exact I'|].
    rewrite put_seq_neq by congruence. easy.
  - destruct Ho as (Nd & Na & Hv). destruct (plus_left_ok d a v w g) as (w' & E & I' & Z1 & _); auto.
    exists w'. split; [exact E|]. split; [exact I'|].
    rewrite put_seq_neq by congruence. easy.
  - destruct Ho as (Nd & Na & Hv & Hp).
    destruct (plus_move_ok d a v w g) as (w' & E & I' & Z1 & _); auto.
    exists w'. split; [exact E|]. split; [exact I'|].
    rewrite !put_seq_neq by congruence. easy.
Qed.

Lemma srun_ok : forall l w g, good w g -> s_ok_all g l ->
  exists w', srun l w = Some w' /\ good w' (s_spec_all l g).
Proof.
  induction l as [|o l IH]; intros w g G Ho; cbn in *.
  - eauto.
  - destruct Ho as (H1 & H2). destruct (sstep_ok o w g G H1) as (w1 & E1 & G1).
    rewrite E1. cbn [bind]. apply (IH w1 _ G1 H2).
Qed.

Lemma good0 : good world0 (fun _ => []).
Proof.
  split; [|easy]. split; [|split; [|split]]; cbn; try easy.
Qed.

Lemma s_get_ok w g i : Inv w g -> s_get i w = Some (g i).
Proof.
  intros I. unfold s_get. rewrite (inv_size _ _ i I). destruct (s_data (w_str w i)) as [b|] eqn:Eb.
  - destruct (inv_block _ _ _ _ I Eb) as (r & Hr & _).
    rewrite (read_at_prefix _ _ _ _ 0 _ Hr) by lia. cbn [skipn]. now rewrite firstn_all.
  - destruct I as (R & _). specialize (R i). unfold srep in R. rewrite Eb in R.
    destruct R as (-> & _). easy.
Qed.

Lemma s_cstr_ok w g i : Inv w g -> s_cstr i w = Some (until0 (g i)).
Proof.
  intros I. unfold s_cstr. destruct (s_data (w_str w i)) as [b|] eqn:Eb.
  - destruct (inv_block _ _ _ _ I Eb) as (r & Hr & _). cbn [strlen]. rewrite Hr.
    cbn [skipn]. rewrite strlen_until0. cbn [bind].
    rewrite (read_at_prefix _ _ _ _ 0 _ Hr) by (pose proof (until0_le (g i)); lia).
    cbn [skipn]. now rewrite <- until0_prefix.
  - destruct I as (R & _). specialize (R i). unfold srep in R. rewrite Eb in R.
    destruct R as (-> & _). easy.
Qed.

Lemma s_eq_ok w g i j : Inv w g ->
  s_eq i j w = Some (if list_eq_dec Z.eq_dec (g i) (g j) then true else false).
Proof.
  intros I. unfold s_eq. rewrite (inv_size _ _ i I), (inv_size _ _ j I).
  destruct (Nat.eqb_spec (length (g i)) (length (g j))) as [E|E]; cbn [negb].
  2: { destruct (list_eq_dec Z.eq_dec (g i) (g j)) as [E2|_]; [congruence|easy]. }
  destruct (Nat.eqb_spec (length (g i)) 0) as [E0|N0].
  { rewrite E0 in E. symmetry in E. apply length_zero_iff_nil in E, E0. rewrite E, E0.
    destruct (list_eq_dec Z.eq_dec [] []); [easy|congruence]. }
  assert (B : forall k, length (g k) = length (g i) ->
    exists b, s_data (w_str w k) = Some b /\
      read_at b 0 (length (g i)) (w_heap w) = Some (g k)).
  { intros k Ek. destruct (s_data (w_str w k)) as [b|] eqn:Eb.
    - exists b. split; [easy|]. destruct (inv_block _ _ _ _ I Eb) as (r & Hr & _).
      rewrite (read_at_prefix _ _ _ _ 0 _ Hr) by lia. cbn [skipn]. now rewrite <- Ek, firstn_all.
    - destruct I as (R & _). specialize (R k). unfold srep in R. rewrite Eb in R.
      destruct R as (R & _). rewrite R in Ek. cbn in Ek. lia. }
  destruct (B i eq_refl) as (p & -> & Hp). destruct (B j (eq_sym E)) as (q & -> & Hq).
  rewrite Hp. cbn [bind]. rewrite Hq. reflexivity.
Qed.

Lemma strings_ok l : s_ok_all (fun _ => []) l ->
  exists w, srun l world0 = Some w /\
    forall i, s_get i w = Some (s_spec_all l (fun _ => []) i) /\
      s_cstr i w = Some (until0 (s_spec_all l (fun _ => []) i)) /\
      s_size (w_str w i) = length (s_spec_all l (fun _ => []) i) /\
      forall j, s_eq i j w = Some (if list_eq_dec Z.eq_dec (s_spec_all l (fun _ => []) i)
                                      (s_spec_all l (fun _ => []) j) then true else false).
Proof.
  intros Ho. destruct (srun_ok l world0 _ good0 Ho) as (w & E & (I & _)).
  exists w. split; [exact E|]. intros i. split; [now apply s_get_ok|].
  split; [now apply s_cstr_ok|]. split; [now apply inv_size|]. intros j. now apply s_eq_ok.
Qed.

Lemma strings_memory l w : s_ok_all (fun _ => []) l -> srun l world0 = Some w ->
  (forall i j b, s_data (w_str w i) = Some b -> s_data (w_str w j) = Some b -> i = j) /\
  (forall i b, s_data (w_str w i) = Some b ->
     exists c, blk (w_heap w) b = Some c /\ length c = S (s_cap (w_str w i)) /\
       (s_size (w_str w i) <= s_cap (w_str w i))%nat) /\
  (forall b, blk (w_heap w) b <> None -> exists i, i <> 0%nat /\ s_data (w_str w i) = Some b).
Proof.
  intros Ho E. destruct (srun_ok l world0 _ good0 Ho) as (w' & E' & (I & Z0 & _)).
  rewrite E in E'. injection E' as <-. pose proof I as (A & B & C & D).
  split; [exact B|]. split.
  - intros i b Eb. destruct (inv_block _ _ _ _ I Eb) as (r & Hr & Hc). eexists.
    split; [exact Hr|]. rewrite app_length, map_length, (inv_size _ _ i I). cbn [length].
    split; lia.
  - intros b Nb. destruct (D b Nb) as (i & Ei). exists i. split; [|exact Ei].
    intros ->. rewrite Z0 in Ei. discriminate.
Qed.

(** Assigning a string to itself. *)
Lemma self_assign_empties l w d : s_ok_all (fun _ => []) l -> srun l world0 = Some w ->
  exists w', assign d (AStr d) w = Some w' /\ s_get d w' = Some [] /\
    forall j, j <> d -> s_get j w' = s_get j w.
Proof.
  intros Ho E. destruct (srun_ok l world0 _ good0 Ho) as (w' & E' & (I & Z0 & _)).
  rewrite E in E'. injection E' as <-. unfold assign. cbn [eval_arg bind].
  destruct (clear_ok d w _ I) as (w1 & F1 & I1 & S1 & _). rewrite F1. cbn [bind].
  destruct (cput_ok d w1 _ [CRef d] [length (@nil Z)] [[]] I1) as (w2 & G1 & I2 & S2).
  - cbn. rewrite (inv_size _ _ d I1), put_seq_eq. easy.
  - easy.
  - cbn. constructor; [|constructor]. cbn. now rewrite put_seq_eq.
  - exists w2. split; [exact G1|]. rewrite (s_get_ok _ _ d I2), !put_seq_eq. split; [easy|].
    intros j N. rewrite (s_get_ok _ _ j I2), (s_get_ok _ _ j I), !put_seq_neq by easy. easy.
Qed.

(** Appending text of the string by pointer, when the string has to grow. *)
Lemma ptr_append_undefined l w d k : s_ok_all (fun _ => []) l -> srun l world0 = Some w ->
  (k < length (s_spec_all l (fun _ => []) d))%nat ->
  until0 (skipn k (s_spec_all l (fun _ => []) d)) <> [] ->
  (s_cap (w_str w d) < s_size (w_str w d) +
     length (until0 (skipn k (s_spec_all l (fun _ => []) d))))%nat ->
  put d [ACstr d k] w = None.
Proof.
  intros Ho E Hk Hu Hc. destruct (srun_ok l world0 _ good0 Ho) as (w' & E' & (I & Z0 & _)).
  rewrite E in E'. injection E' as <-. set (g := s_spec_all l (fun _ => [])) in *.
  unfold put. cbn [eval_args eval_arg].
  destruct (s_data (w_str w d)) as [b|] eqn:Eb.
  2: { destruct I as (R & _). specialize (R d). unfold srep in R. rewrite Eb in R.
       destruct R as (R & _). rewrite R in Hk. cbn in Hk. lia. }
  cbn [bind]. unfold cput. cbn [bounds bound strlen].
  destruct (inv_block _ _ _ _ I Eb) as (r & Hr & _). rewrite Hr.
  rewrite skipn_map_app by lia. rewrite strlen_until0. cbn [bind].
  set (u := until0 (skipn k (g d))) in *.
  change (list_sum [length u]) with (length u + 0)%nat. rewrite Nat.add_0_r.
  destruct (grow_ok true d (length u) w g I) as (w1 & F1 & I1 & S1 & C1). rewrite F1. cbn [bind].
  cbn [combine formats format]. unfold put_unchecked.
  destruct (Nat.eqb_spec (length u) 0) as [E0|_].
  { apply length_zero_iff_nil in E0. congruence. }
  (* the block was freed *)
  assert (Hf : blk (w_heap w1) b = None).
  { unfold grow in F1. rewrite (inv_size _ _ d I) in *.
    destruct (Nat.leb_spec (length (g d) + length u) (s_cap (w_str w d))) as [L|L]; [lia|].
    unfold alloc in F1. rewrite Eb in F1.
    match type of F1 with (let? h := ?e in _) = _ => destruct e as [h1|] eqn:E1; [|easy] end.
    cbn [bind] in F1.
    match type of F1 with (let? h := ?e in _) = _ => destruct e as [h2|] eqn:E2; [|easy] end.
    cbn [bind] in F1.
    match type of F1 with (let? h := ?e in _) = _ => destruct e as [h3|] eqn:E3; [|easy] end.
    cbn [bind] in F1. injection F1 as <-. cbn [w_heap].
    destruct (free_facts _ _ _ E3) as (_ & H & _). now apply H. }
  destruct (s_data (w_str w1 d)) as [b'|]; [|easy].
  unfold memcpy, read_at. rewrite Hf.
  destruct ((b =? b')%nat && (k <? s_size (w_str w1 d) + length u)%nat
            && (s_size (w_str w1 d) <? k + length u)%nat)%bool; easy.
Qed.
