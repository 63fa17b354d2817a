(** The operations of strings refine the operations of sequences. *)

From Verif Require Import Base Nst_Model Nst_Spec Nst_Heap Nst_Str.

#[local] Ltac Zify.zify_post_hook ::= idtac.

(** An evaluated argument of a function that changes string [d], with its bound
    and its text. *)
Definition ainv (d : nat) (w : world) (g : seqs) (n : nat) (c : carg) (t : list Z) : Prop :=
  match c with
  | CText l => n = length l /\ t = l
  | CFmt m l => n = m /\ (length l <= m)%nat /\ t = l
  | CRef j => n = length (g j) /\ t = g j
  | CPtr s =>
      n = length t /\
      (s = Const [0%Z] /\ t = [] \/
       exists j b k, j <> d /\ s = Mem b k /\ s_data (w_str w j) = Some b /\
         (k <= length (g j))%nat /\ t = until0 (skipn k (g j)))
  end.

Lemma ainv_le d w g n c t : ainv d w g n c t -> (length t <= n)%nat.
Proof.
  destruct c; cbn; intros H; intuition (subst; auto).
Qed.

Lemma ainv_frame d w w' g g' n c t :
  same_but d w w' -> (forall j, j <> d -> g' j = g j) ->
  (forall j, c <> CRef j) -> ainv d w g n c t -> ainv d w' g' n c t.
Proof.
  intros S1 G Nc. destruct c; cbn; auto.
  - exfalso. now apply (Nc j).
  - intros (A & [B|(j & b & k & B1 & B2 & B3 & B4 & B5)]); split; auto.
    right. exists j, b, k. rewrite G by easy. rewrite S1 by easy. auto.
Qed.

(** One argument: the text is appended. *)
Lemma format_ok d n c t w0 g0 w g acc : Inv w g ->
  (forall j, j <> d -> g j = g0 j) -> g d = g0 d ++ acc -> same_but d w0 w ->
  ainv d w0 g0 n c t ->
  (length (g d) + n <= s_cap (w_str w d))%nat ->
  exists w', format d n c w = Some w' /\ Inv w' (put_seq d (g d ++ t) g) /\ same_but d w w' /\
    s_cap (w_str w' d) = s_cap (w_str w d) /\ s_data (w_str w' d) = s_data (w_str w d).
Proof.
  intros I Gj Gd Sb A Hc. pose proof (ainv_le _ _ _ _ _ _ A) as Ht.
  destruct c as [l|m l|j|s]; cbn in A |- *.
  - destruct A as (-> & ->). apply put_unchecked_ok; [exact I|lia|cbn; now rewrite firstn_all].
  - destruct A as (-> & _ & ->). apply put_unchecked_ok; [exact I|lia|cbn; now rewrite firstn_all].
  - destruct A as (-> & ->).
    assert (P : g0 j = firstn (length (g0 j)) (g j) /\ (length (g0 j) <= length (g j))%nat).
    { destruct (Nat.eq_dec j d) as [->|N].
      - rewrite Gd, app_length, firstn_app, Nat.sub_diag, firstn_O, app_nil_r, firstn_all.
        split; [easy|lia].
      - rewrite Gj by easy. now rewrite firstn_all. }
    destruct P as (P1 & P2).
    destruct (s_data (w_str w j)) as [b|] eqn:Eb.
    + destruct (inv_block _ _ _ _ I Eb) as (r & Hr & _).
      apply put_unchecked_ok; auto. cbn. split.
      * rewrite (read_at_prefix _ _ (g j) _ 0 (length (g0 j)) Hr) by lia.
        cbn [skipn]. now rewrite <- P1.
      * destruct (Nat.eq_dec j d) as [->|N]; [right; lia|]. left.
        destruct I as (_ & B & _). intros E. apply N. eauto.
    + assert (Z0 : g j = []).
      { destruct I as (R & _). specialize (R j). unfold srep in R. rewrite Eb in R. easy. }
      rewrite Z0 in P2. cbn in P2.
      destruct (g0 j) as [|z l]; [|cbn in P2; lia].
      exists w. cbn. split; [easy|]. split.
      * eapply inv_ext; [|exact I]. intros i. rewrite app_nil_r. symmetry. apply put_seq_self.
      * split; [apply same_but_refl|easy].
  - destruct A as (-> & [(-> & ->)|(j & b & k & Nj & -> & Eb & Hk & ->)]).
    + cbn. exists w. split; [easy|]. split.
      * eapply inv_ext; [|exact I]. intros i. rewrite app_nil_r. symmetry. apply put_seq_self.
      * split; [apply same_but_refl|easy].
    + rewrite <- Sb in Eb by easy. destruct (inv_block _ _ _ _ I Eb) as (r & Hr & _).
      rewrite Gj in Hr by easy.
      apply put_unchecked_ok; auto. cbn. split.
      * pose proof (until0_le (skipn k (g0 j))) as Lu. rewrite skipn_length in Lu.
        rewrite (read_at_prefix _ _ (g0 j) _ k _ Hr) by lia.
        now rewrite <- until0_prefix.
      * left. destruct I as (_ & B & _). intros E. apply Nj. eauto.
Qed.

Lemma formats_ok d w0 g0 : forall ns cs ts w g acc,
  Inv w g ->
  (forall j, j <> d -> g j = g0 j) -> g d = g0 d ++ acc -> same_but d w0 w ->
  Forall2 (fun nc t => ainv d w0 g0 (fst nc) (snd nc) t) (combine ns cs) ts ->
  length ns = length cs ->
  (length (g d) + list_sum ns <= s_cap (w_str w d))%nat ->
  exists w', formats d (combine ns cs) w = Some w' /\
    Inv w' (put_seq d (g d ++ concat ts) g) /\ same_but d w w'.
Proof.
  induction ns as [|n ns IH]; intros cs ts w g acc I Gj Gd Sb F Hl Hc; destruct cs as [|c cs];
    cbn in Hl; try lia.
  - cbn in F. inversion F; subst. exists w. cbn. split; [easy|]. split; [|apply same_but_refl].
    eapply inv_ext; [|exact I]. intros i. rewrite app_nil_r. symmetry. apply put_seq_self.
  - cbn in F. inversion F as [|? t ? ts' F1 F2]; subst. cbn in F1.
    change (list_sum (n :: ns)) with (n + list_sum ns)%nat in Hc.
    destruct (format_ok d n c t w0 g0 w g acc) as (w1 & E1 & I1 & S1 & C1 & _); auto.
    { lia. }
    cbn [combine formats]. rewrite E1. cbn [bind].
    destruct (IH cs ts' w1 (put_seq d (g d ++ t) g) (acc ++ t)) as (w2 & E2 & I2 & S2); auto.
    + intros j N. rewrite put_seq_neq by easy. auto.
    + rewrite put_seq_eq, Gd. now rewrite app_assoc.
    + eapply same_but_trans; eauto.
    + rewrite put_seq_eq, app_length, C1. pose proof (ainv_le _ _ _ _ _ _ F1). lia.
    + exists w2. split; [exact E2|]. split; [|eapply same_but_trans; eauto].
      eapply inv_ext; [|exact I2]. intros i. rewrite put_seq_eq. cbn [concat].
      unfold put_seq. destruct (i =? d)%nat; [|easy]. now rewrite app_assoc.
Qed.

Lemma eval_arg_ok d w g a : Inv w g -> arg_ok g a -> no_ptr d a ->
  exists c n, eval_arg w a = Some c /\ bound w c = Some n /\ ainv d w g n c (arg_text g a).
Proof.
  intros I A N. destruct a as [l|m l|j|j k]; cbn in A, N |- *.
  - exists (CText l), (length l). cbn. auto.
  - apply Nat.leb_le in A. rewrite A. apply Nat.leb_le in A.
    exists (CFmt m l), m. cbn. auto.
  - exists (CRef j), (length (g j)). cbn. rewrite (inv_size _ _ j I). auto.
  - destruct A as (_ & A). destruct (s_data (w_str w j)) as [b|] eqn:Eb.
    + destruct (inv_block _ _ _ _ I Eb) as (r & Hr & _).
      exists (CPtr (Mem b k)), (length (until0 (skipn k (g j)))). cbn. split; [easy|].
      rewrite Hr, skipn_map_app by easy. rewrite strlen_until0. split; [easy|]. split; [easy|].
      right. exists j, b, k. auto.
    + destruct I as (R & _). specialize (R j). unfold srep in R. rewrite Eb in R.
      destruct R as (R & _). rewrite R in A |- *. cbn in A.
      assert (k = O) as -> by lia. cbn. exists (CPtr (Const [0%Z])), O. cbn.
      split; [easy|]. split; [easy|]. split; [easy|]. now left.
Qed.

Lemma eval_args_ok d w g l : Inv w g -> Forall (arg_ok g) l -> Forall (no_ptr d) l ->
  exists cs ns, eval_args w l = Some cs /\ bounds w cs = Some ns /\ length ns = length cs /\
    Forall2 (fun nc t => ainv d w g (fst nc) (snd nc) t) (combine ns cs) (map (arg_text g) l).
Proof.
  intros I. induction 1 as [|a l A1 A2 IH]; intros N.
  - exists [], []. cbn. repeat split. constructor.
  - inversion N as [|? ? N1 N2]; subst. destruct (IH N2) as (cs & ns & E1 & E2 & E3 & E4).
    destruct (eval_arg_ok d w g a I A1 N1) as (c & n & F1 & F2 & F3).
    exists (c :: cs), (n :: ns). cbn. rewrite E1, E2, F1, F2. cbn. rewrite E3.
    repeat split. constructor; auto.
Qed.

Lemma cput_ok d w g cs ns ts : Inv w g -> bounds w cs = Some ns -> length ns = length cs ->
  Forall2 (fun nc t => ainv d w g (fst nc) (snd nc) t) (combine ns cs) ts ->
  exists w', cput d cs w = Some w' /\ Inv w' (put_seq d (g d ++ concat ts) g) /\ same_but d w w'.
Proof.
  intros I B L F. unfold cput. rewrite B. cbn [bind].
  destruct (grow_ok true d (list_sum ns) w g I) as (w1 & E1 & I1 & S1 & C1). rewrite E1. cbn [bind].
  destruct (formats_ok d w g ns cs ts w1 g []) as (w2 & E2 & I2 & S2); auto.
  { now rewrite app_nil_r. }
  exists w2. split; [exact E2|]. split; [exact I2|]. eapply same_but_trans; eauto.
Qed.

Lemma put_ok d l w g : Inv w g -> Forall (arg_ok g) l -> Forall (no_ptr d) l ->
  exists w', put d l w = Some w' /\
    Inv w' (put_seq d (g d ++ concat (map (arg_text g) l)) g) /\ same_but d w w'.
Proof.
  intros I A N. unfold put.
  destruct (eval_args_ok d w g l I A N) as (cs & ns & E1 & E2 & E3 & E4). rewrite E1. cbn [bind].
  eapply cput_ok; eauto.
Qed.

Lemma clear_ok d w g : Inv w g ->
  exists w', clear d w = Some w' /\ Inv w' (put_seq d [] g) /\ same_but d w w' /\
    s_data (w_str w' d) = s_data (w_str w d).
Proof.
  intros I. unfold clear. destruct (s_data (w_str w d)) as [b|] eqn:Eb.
  - destruct (inv_block _ _ _ _ I Eb) as (r & Hr & Hc).
    rewrite (write_at_some _ _ _ 0 [0%Z] Hr)
      by (rewrite app_length, map_length; cbn; lia). cbn [bind].
    eexists. split; [reflexivity|]. split; [|split].
    + apply inv_write; auto. unfold srep. cbn [s_data s_cap s_size].
      exists (skipn 1 (map Some (g d) ++ Some 0%Z :: r)). split; [|split; [|easy]].
      * rewrite set_blk_eq. reflexivity.
      * rewrite skipn_length, app_length, map_length. cbn [length]. lia.
    + intros j N. cbn [w_str]. now apply hupd_neq.
    + cbn [w_str]. rewrite hupd_eq. easy.
  - cbn [bind]. eexists. split; [reflexivity|]. split; [|split].
    + pose proof I as (A & B & C & D). apply inv_update; auto.
      * unfold srep. cbn. specialize (A d). unfold srep in A. rewrite Eb in A. intuition.
      * cbn. discriminate.
      * intros b Nb. destruct (D b Nb) as (j & Ej). right. exists j. split; [|exact Ej].
        intros ->. congruence.
    + intros j N. cbn [w_str]. now apply hupd_neq.
    + cbn [w_str]. rewrite hupd_eq. easy.
Qed.

Lemma assign_ok d a w g : Inv w g -> arg_ok g a -> no_ptr d a -> a <> AStr d ->
  exists w', assign d a w = Some w' /\ Inv w' (put_seq d (arg_text g a) g) /\ same_but d w w'.
Proof.
  intros I A N Na. unfold assign.
  destruct (eval_arg_ok d w g a I A N) as (c & n & E1 & E2 & E3). rewrite E1. cbn [bind].
  destruct (clear_ok d w g I) as (w1 & F1 & I1 & S1 & D1). rewrite F1. cbn [bind].
  assert (Hb : bound w1 c = Some n /\ ainv d w1 (put_seq d [] g) n c (arg_text g a)).
  { destruct a as [l|m l|j|j k]; cbn in E1, N.
    - injection E1 as <-. cbn in *. auto.
    - destruct (length l <=? m)%nat; [|easy]. injection E1 as <-. cbn in *. auto.
    - injection E1 as <-. cbn in *. assert (j <> d) by congruence.
      rewrite S1, put_seq_neq by easy. auto.
    - destruct (s_data (w_str w j)) as [b|] eqn:Eb.
      + injection E1 as <-. split.
        * rewrite <- S1 in Eb by easy. destruct (inv_block _ _ _ _ I1 Eb) as (r & Hr & _).
          rewrite put_seq_neq in Hr by easy. cbn. rewrite Hr.
          cbn in A. rewrite skipn_map_app by easy. rewrite strlen_until0.
          cbn in E3. f_equal. symmetry. apply E3.
        * eapply ainv_frame; [exact S1| | |exact E3]; [|easy].
          intros j' N'. now apply put_seq_neq.
      + destruct (k =? 0)%nat; [|easy]. injection E1 as <-. split; [exact E2|].
        eapply ainv_frame; [exact S1| | |exact E3]; [|easy].
        intros j' N'. now apply put_seq_neq. }
  destruct Hb as (Hb & Ha).
  destruct (cput_ok d w1 (put_seq d [] g) [c] [n] [arg_text g a]) as (w2 & G1 & I2 & S2); auto.
  { cbn. now rewrite Hb. }
  { cbn. constructor; [exact Ha|constructor]. }
  exists w2. split; [exact G1|]. split; [|eapply same_but_trans; eauto].
  eapply inv_ext; [|exact I2]. intros i. rewrite put_seq_eq. cbn. rewrite app_nil_r.
  unfold put_seq. now destruct (i =? d)%nat.
Qed.

Lemma free_facts p h h' : free p h = Some h' ->
  (forall b, p <> Some b -> blk h' b = blk h b) /\
  (forall b, p = Some b -> blk h' b = None) /\ nxt h' = nxt h.
Proof.
  unfold free. destruct p as [p|].
  - destruct (blk h p) eqn:Ep; [|easy]. intros E; injection E as <-. split; [|split; [|easy]].
    + intros b N. apply set_blk_neq. congruence.
    + intros b E. injection E as <-. apply set_blk_eq.
  - intros E; injection E as <-. easy.
Qed.

Lemma inv_pointwise h s s' g :
  (forall i, s i = s' i) -> Inv {| w_heap := h; w_str := s |} g -> Inv {| w_heap := h; w_str := s' |} g.
Proof.
  intros E (A & B & C & D). cbn in *. split; [|split; [|split]]; cbn.
  - intros i. rewrite <- E. apply A.
  - intros i j b. rewrite <- !E. apply B.
  - exact C.
  - intros b Nb. destruct (D b Nb) as (i & Ei). exists i. now rewrite <- E.
Qed.

Lemma move_ok d j w g : Inv w g ->
  exists w', move d j w = Some w' /\ Inv w' (put_seq j [] (put_seq d (g j) g)) /\
    (forall i, i <> d -> i <> j -> w_str w' i = w_str w i) /\ w_str w' j = snull.
Proof.
  intros I. unfold move.
  destruct (free_alive (s_data (w_str w d)) (w_heap w)) as (h & Hh).
  { intros b E. destruct (inv_block _ _ _ _ I E) as (r & -> & _). easy. }
  rewrite Hh. cbn [bind]. eexists. split; [reflexivity|].
  destruct (free_facts _ _ _ Hh) as (Hb & Hd & Hn).
  unfold set_heap, set_str. cbn [w_heap w_str].
  pose proof I as (A & B & C & D).
  set (fin := hupd j snull (hupd d (w_str w j) (w_str w))).
  match goal with |- Inv {| w_heap := h; w_str := ?f |} _ /\ _ =>
    assert (W : forall i, fin i = f i) end.
  { intros i. unfold fin. destruct (Nat.eq_dec i j) as [->|Ni].
    - rewrite !hupd_eq. destruct (Nat.eq_dec j d) as [->|Nj].
      + rewrite !hupd_eq. reflexivity.
      + repeat (rewrite ?hupd_eq; rewrite ?hupd_neq by easy). reflexivity.
    - rewrite !(hupd_neq j) by easy. destruct (Nat.eq_dec i d) as [->|Nd].
      + assert (j <> d) by congruence.
        repeat (rewrite ?hupd_eq; rewrite ?(hupd_neq d) by easy; rewrite ?(hupd_neq j) by easy).
        cbn. now destruct (w_str w j).
      + now rewrite !hupd_neq by easy. }
  split; [|split].
  - eapply inv_pointwise; [exact W|]. split; [|split; [|split]]; cbn [w_heap w_str].
    + intros i. unfold fin. destruct (Nat.eq_dec i j) as [->|Ni].
      { rewrite hupd_eq, put_seq_eq. now cbn. }
      rewrite hupd_neq, put_seq_neq by easy. destruct (Nat.eq_dec i d) as [->|Nd].
      * rewrite hupd_eq, put_seq_eq. eapply srep_frame; [|apply A]. intros b E.
        apply Hb. intros E2. apply Ni. eauto.
      * rewrite hupd_neq, put_seq_neq by easy. eapply srep_frame; [|apply A]. intros b E.
        apply Hb. intros E2. apply Nd. eauto.
    + intros i i' b. unfold fin.
      destruct (Nat.eq_dec i j) as [->|Ni]; [rewrite hupd_eq; discriminate|].
      destruct (Nat.eq_dec i' j) as [->|Ni']; [rewrite (hupd_eq j); discriminate|].
      rewrite !(hupd_neq j) by easy.
      destruct (Nat.eq_dec i d) as [->|Nd]; destruct (Nat.eq_dec i' d) as [->|Nd'];
        rewrite ?hupd_eq; rewrite ?hupd_neq by easy; intros E1 E2; try easy.
      * exfalso. apply Ni'. eauto.
      * exfalso. apply Ni. eauto.
      * eauto.
    + intros b L. rewrite Hn in L.
      destruct (s_data (w_str w d)) as [p|] eqn:Ep.
      * destruct (Nat.eq_dec p b) as [->|Np]; [now apply Hd|]. rewrite Hb by congruence. auto.
      * rewrite Hb by congruence. auto.
    + intros b Nb.
      assert (Np : s_data (w_str w d) <> Some b) by (intros E; apply Nb; auto).
      rewrite Hb in Nb by easy. destruct (D b Nb) as (i & Ei).
      assert (Nd : i <> d) by (intros ->; congruence).
      destruct (Nat.eq_dec i j) as [->|Ni].
      * exists d. unfold fin. rewrite hupd_neq by congruence. now rewrite hupd_eq.
      * exists i. unfold fin. now rewrite !hupd_neq by easy.
  - intros i N1 N2. rewrite <- W. unfold fin. now rewrite !hupd_neq by easy.
  - rewrite <- W. unfold fin. now rewrite hupd_eq.
Qed.

Lemma swap_ok i j w g : Inv w g ->
  exists w', swap i j w = Some w' /\ Inv w' (put_seq j (g i) (put_seq i (g j) g)) /\
    (forall k, k <> i -> k <> j -> w_str w' k = w_str w k).
Proof.
  intros (A & B & C & D). unfold swap. eexists. split; [reflexivity|].
  unfold set_str. cbn [w_heap w_str].
  set (p := fun k => if (k =? j)%nat then i else if (k =? i)%nat then j else k).
  assert (W : forall k, hupd j (w_str w i) (hupd i (w_str w j) (w_str w)) k = w_str w (p k)).
  { intros k. unfold hupd, p. destruct (k =? j)%nat; [easy|]. now destruct (k =? i)%nat. }
  assert (G : forall k, put_seq j (g i) (put_seq i (g j) g) k = g (p k)).
  { intros k. unfold put_seq, p. destruct (k =? j)%nat; [easy|]. now destruct (k =? i)%nat. }
  assert (P : forall k, p (p k) = k).
  { intros k. unfold p. destruct (Nat.eqb_spec k j) as [->|N1].
    - rewrite Nat.eqb_refl. destruct (Nat.eqb_spec i j); congruence.
    - destruct (Nat.eqb_spec k i) as [->|N2].
      + now rewrite Nat.eqb_refl.
      + apply Nat.eqb_neq in N1, N2. now rewrite N1, N2. }
  split.
  - split; [|split; [|split]]; cbn [w_heap w_str].
    + intros k. rewrite W, G. apply A.
    + intros k k' b. rewrite !W. intros E1 E2. rewrite <- (P k), <- (P k'). f_equal. eauto.
    + exact C.
    + intros b Nb. destruct (D b Nb) as (k & Ek). exists (p k). now rewrite W, P.
  - intros k N1 N2. now rewrite !hupd_neq by easy.
Qed.

Lemma reserve_ok d n w g : Inv w g ->
  exists w', reserve d n w = Some w' /\ Inv w' g /\ same_but d w w' /\
    (n <= s_cap (w_str w' d))%nat.
Proof.
  intros I. unfold reserve. destruct (Nat.ltb_spec (s_cap (w_str w d)) n) as [L|L].
  - destruct (grow_ok false d (n - s_size (w_str w d)) w g I) as (w' & E & I' & S1 & C1).
    exists w'. rewrite (inv_size _ _ d I) in *. repeat (split; [easy|]). lia.
  - exists w. repeat (split; [easy|]). easy.
Qed.

Lemma firstn_repeat_app (l : list Z) n ch :
  (n <= length l)%nat -> firstn n l ++ repeat ch (n - length l) = firstn n l.
Proof. intros H. replace (n - length l)%nat with O by lia. apply app_nil_r. Qed.

Lemma resize_ok d n ch w g : Inv w g ->
  exists w', resize d n ch w = Some w' /\
    Inv w' (put_seq d (firstn n (g d) ++ repeat ch (n - length (g d))) g) /\ same_but d w w'.
Proof.
  intros I0. unfold resize.
  destruct (reserve_ok d n w g I0) as (w1 & E1 & I & S1 & C1). rewrite E1. cbn [bind].
  rewrite (inv_size _ _ d I).
  destruct (s_data (w_str w1 d)) as [b|] eqn:Eb.
  - destruct (inv_block _ _ _ _ I Eb) as (r & Hr & Hc).
    destruct (fill_app (n - length (g d)) (w_heap w1) b (g d) (Some 0%Z :: r) ch Hr)
      as (h1 & F1 & F2 & F3 & F4); [cbn; lia|].
    rewrite F1. cbn [bind].
    set (X := skipn (n - length (g d)) (Some 0%Z :: r)) in *.
    assert (LX : length X = (S (length r) - (n - length (g d)))%nat).
    { unfold X. now rewrite skipn_length. }
    rewrite (write_at_some _ _ _ n [0%Z] F2)
      by (rewrite app_length, map_length, app_length, repeat_length, LX; cbn [length]; lia).
    cbn [bind]. eexists. split; [reflexivity|]. split.
    + pose proof I as (A & B & C & D). apply inv_update; auto.
      * intros j b' N E. rewrite set_blk_neq; [|intros ->; apply N; eauto].
        apply F3. intros ->. apply N. eauto.
      * unfold srep. cbn [s_data s_cap s_size].
        set (s := g d ++ repeat ch (n - length (g d))) in *.
        assert (Ls : length s = (length (g d) + (n - length (g d)))%nat)
          by (unfold s; now rewrite app_length, repeat_length).
        assert (Fs : firstn n (g d) ++ repeat ch (n - length (g d)) = firstn n s).
        { unfold s. destruct (Nat.le_gt_cases n (length (g d))) as [L|L].
          - rewrite firstn_repeat_app by easy. rewrite firstn_app.
            replace (n - length (g d))%nat with O by lia. cbn. now rewrite app_nil_r.
          - rewrite (firstn_all2 (g d)) by lia. rewrite firstn_all2; [easy|].
            rewrite app_length, repeat_length. lia. }
        rewrite Fs.
        exists (skipn (n + 1) (map Some s ++ X)). split; [|split].
        -- rewrite set_blk_eq. unfold write_cells. rewrite firstn_map_app by lia. reflexivity.
        -- rewrite firstn_length, skipn_length, app_length, map_length, LX. lia.
        -- rewrite firstn_length. lia.
      * intros j b' N E1' E2. cbn in E1'. injection E1' as <-. apply N. eauto.
      * intros b' Lb. cbn in Lb. rewrite F4 in Lb. pose proof (inv_lt _ _ _ _ I Eb).
        rewrite set_blk_neq by lia. rewrite F3 by lia. auto.
      * intros b' Nb. destruct (Nat.eq_dec b' b) as [->|N]; [now left|]. right.
        rewrite set_blk_neq in Nb by easy. rewrite F3 in Nb by easy.
        destruct (D b' Nb) as (j & Ej). exists j. split; [|exact Ej]. intros ->. congruence.
    + intros j N. cbn [w_str]. rewrite hupd_neq by easy. now apply S1.
  - cbn [bind]. assert (Hz : g d = [] /\ n = O).
    { pose proof I as (A & _). specialize (A d). unfold srep in A. rewrite Eb in A.
      destruct A as (A1 & A2 & A3). rewrite A2 in C1. split; [easy|lia]. }
    destruct Hz as (Hz & ->).
    eexists. split; [reflexivity|]. split.
    + rewrite Hz. cbn [firstn length Nat.sub repeat app].
      pose proof I as (A & B & C & D). apply inv_update; auto.
      * unfold srep. cbn. specialize (A d). unfold srep in A. rewrite Eb in A. intuition.
      * cbn. discriminate.
      * intros b Nb. destruct (D b Nb) as (j & Ej). right. exists j. split; [|exact Ej].
        intros ->. congruence.
    + intros j N. cbn [w_str]. rewrite hupd_neq by easy. now apply S1.
Qed.

(** [indent] writes the same as appending a text of blanks. *)
Lemma indent_ok d n w g : Inv w g ->
  exists w', indent d n w = Some w' /\ Inv w' (put_seq d (g d ++ repeat 32%Z n) g) /\ same_but d w w'.
Proof.
  intros I0. unfold indent. destruct (Nat.eqb_spec n 0) as [->|N0].
  { exists w. split; [easy|]. split; [|apply same_but_refl].
    eapply inv_ext; [|exact I0]. intros i. cbn. rewrite app_nil_r. symmetry. apply put_seq_self. }
  destruct (grow_ok true d n w g I0) as (w1 & E1 & I & S1 & C1). rewrite E1. cbn [bind].
  destruct (put_unchecked_ok d (Const (repeat 32%Z n)) (repeat 32%Z n) w1 g I)
    as (w2 & P1 & P2 & P3 & _).
  { rewrite repeat_length. lia. }
  { cbn. now rewrite firstn_all. }
  exists w2. split; [|split; [exact P2|eapply same_but_trans; eauto]].
  rewrite <- P1. unfold put_unchecked, memcpy. rewrite repeat_length.
  apply Nat.eqb_neq in N0. rewrite N0, Nat.leb_refl.
  rewrite firstn_all2 by (rewrite repeat_length; lia). reflexivity.
Qed.

Lemma drop_ok w g : Inv w g -> w_str w 0%nat = snull ->
  exists w', drop w = Some w' /\ Inv w' g /\ (forall i, w_str w' i = w_str w i).
Proof.
  intros I Z0. unfold drop. rewrite Z0. cbn. eexists. split; [reflexivity|].
  assert (W : forall i, w_str w i = hupd 0 snull (w_str w) i).
  { intros i. destruct (Nat.eq_dec i 0) as [->|N]; [now rewrite hupd_eq|]. now rewrite hupd_neq. }
  split.
  - eapply inv_pointwise; [exact W|]. now destruct w.
  - intros i. cbn [w_str]. symmetry. apply W.
Qed.

(** The end of [operator+]: the temporary is moved to [d] and destroyed. *)
Lemma finish_ok d t w g w0 : Inv w (put_seq 0 t g) -> g 0%nat = [] -> d <> 0%nat ->
  same_but 0 w0 w ->
  exists w', (let? w := move d 0 w in drop w) = Some w' /\ Inv w' (put_seq d t g) /\
    w_str w' 0%nat = snull /\
    (forall j, j <> d -> j <> 0%nat -> w_str w' j = w_str w0 j).
Proof.
  intros I G0 Nd S1. destruct (move_ok d 0 w _ I) as (w1 & E1 & I1 & M1 & M2).
  rewrite E1. cbn [bind]. destruct (drop_ok w1 _ I1 M2) as (w2 & E2 & I2 & W2).
  exists w2. split; [exact E2|]. split; [|split].
  - eapply inv_ext; [|exact I2]. intros i. rewrite put_seq_eq.
    destruct (Nat.eq_dec i 0) as [->|N0].
    + rewrite put_seq_eq, put_seq_neq by congruence. now symmetry.
    + rewrite (put_seq_neq 0) by easy. unfold put_seq at 1 3.
      destruct (i =? d)%nat; [easy|]. now apply put_seq_neq.
  - now rewrite W2.
  - intros j N1 N2. rewrite W2, M1 by easy. now apply S1.
Qed.

(** A string as the source of [put_unchecked] for another string. *)
Lemma put_other d a w g : Inv w g -> a <> d ->
  (length (g d) + length (g a) <= s_cap (w_str w d))%nat ->
  exists w', (match s_data (w_str w a) with
              | Some b => put_unchecked d (Mem b 0) (length (g a)) w
              | None => if (length (g a) =? 0)%nat then Some w else None
              end) = Some w' /\
    Inv w' (put_seq d (g d ++ g a) g) /\ same_but d w w' /\
    s_cap (w_str w' d) = s_cap (w_str w d).
Proof.
  intros I N Hc. destruct (s_data (w_str w a)) as [b|] eqn:Eb.
  - destruct (inv_block _ _ _ _ I Eb) as (r & Hr & _).
    destruct (put_unchecked_ok d (Mem b 0) (g a) w g I Hc) as (w' & P1 & P2 & P3 & P4 & _).
    + cbn. split.
      * rewrite (read_at_prefix _ _ (g a) _ 0 _ Hr) by lia. cbn [skipn]. now rewrite firstn_all.
      * left. destruct I as (_ & B & _). intros E. apply N. eauto.
    + exists w'. auto.
  - assert (Z0 : g a = []).
    { destruct I as (R & _). specialize (R a). unfold srep in R. rewrite Eb in R. easy. }
    rewrite Z0. cbn. exists w. split; [easy|]. split; [|split; [apply same_but_refl|easy]].
    eapply inv_ext; [|exact I]. intros i. rewrite app_nil_r. symmetry. apply put_seq_self.
Qed.

Lemma arg_no0 g v : arg_ok g v -> no_ptr 0 v.
Proof. destruct v; cbn; easy. Qed.

Lemma plus_ok d a v w g : Inv w g -> w_str w 0%nat = snull -> g 0%nat = [] ->
  d <> 0%nat -> a <> 0%nat -> arg_ok g v ->
  exists w', plus d a v w = Some w' /\ Inv w' (put_seq d (g a ++ arg_text g v) g) /\
    w_str w' 0%nat = snull /\ (forall j, j <> d -> j <> 0%nat -> w_str w' j = w_str w j).
Proof.
  intros I Z0 G0 Nd Na Hv. unfold plus.
  destruct (eval_arg_ok 0 w g v I Hv (arg_no0 _ _ Hv)) as (c & n & E1 & E2 & E3).
  rewrite E1. cbn [bind]. rewrite E2. cbn [bind]. rewrite (inv_size _ _ a I).
  destruct (grow_ok true 0 (length (g a) + n) w g I) as (w1 & F1 & I1 & S1 & C1).
  rewrite F1. cbn [bind]. rewrite G0 in C1. cbn in C1.
  destruct (put_other 0 a w1 g I1 Na) as (w2 & P1 & I2 & S2 & C2).
  { rewrite G0. cbn. lia. }
  rewrite P1. cbn [bind]. rewrite G0 in I2. cbn [app] in I2.
  destruct (format_ok 0 n c (arg_text g v) w g w2 (put_seq 0 (g a) g) (g a))
    as (w3 & Q1 & I3 & S3 & _); auto.
  { intros j N. now apply put_seq_neq. }
  { now rewrite put_seq_eq, G0. }
  { eapply same_but_trans; eauto. }
  { rewrite put_seq_eq. lia. }
  rewrite Q1. cbn [bind].
  apply finish_ok; auto.
  - eapply inv_ext; [|exact I3]. intros i. rewrite put_seq_eq. unfold put_seq.
    now destruct (i =? 0)%nat.
  - eapply same_but_trans; [|eassumption]. eapply same_but_trans; eauto.
Qed.

Lemma plus_left_ok d a v w g : Inv w g -> w_str w 0%nat = snull -> g 0%nat = [] ->
  d <> 0%nat -> a <> 0%nat -> arg_ok g v ->
  exists w', plus_left d a v w = Some w' /\ Inv w' (put_seq d (arg_text g v ++ g a) g) /\
    w_str w' 0%nat = snull /\ (forall j, j <> d -> j <> 0%nat -> w_str w' j = w_str w j).
Proof.
  intros I Z0 G0 Nd Na Hv. unfold plus_left.
  destruct (eval_arg_ok 0 w g v I Hv (arg_no0 _ _ Hv)) as (c & n & E1 & E2 & E3).
  rewrite E1. cbn [bind]. rewrite E2. cbn [bind]. rewrite (inv_size _ _ a I).
  destruct (grow_ok true 0 (n + length (g a)) w g I) as (w1 & F1 & I1 & S1 & C1).
  rewrite F1. cbn [bind]. rewrite G0 in C1. cbn in C1.
  destruct (format_ok 0 n c (arg_text g v) w g w1 g [])
    as (w2 & Q1 & I2 & S2 & C2 & _); auto.
  { now rewrite app_nil_r. }
  { rewrite G0. cbn. lia. }
  rewrite Q1. cbn [bind]. rewrite G0 in I2. cbn [app] in I2.
  pose proof (ainv_le _ _ _ _ _ _ E3) as Lt.
  destruct (put_other 0 a w2 _ I2 Na) as (w3 & P1 & I3 & S3 & C3).
  { rewrite put_seq_eq, put_seq_neq by easy. lia. }
  rewrite put_seq_neq in P1 by easy. rewrite P1. cbn [bind].
  apply finish_ok; auto.
  - eapply inv_ext; [|exact I3]. intros i. rewrite put_seq_eq, (put_seq_neq 0 a) by easy.
    unfold put_seq. now destruct (i =? 0)%nat.
  - eapply same_but_trans; [|eassumption]. eapply same_but_trans; eauto.
Qed.

Lemma plus_move_ok d a v w g : Inv w g -> w_str w 0%nat = snull -> g 0%nat = [] ->
  d <> 0%nat -> a <> 0%nat -> arg_ok g v -> no_ptr a v ->
  exists w', plus_move d a v w = Some w' /\
    Inv w' (put_seq d (g a ++ arg_text (put_seq a [] g) v) (put_seq a [] g)) /\
    w_str w' 0%nat = snull /\
    (forall j, j <> d -> j <> a -> j <> 0%nat -> w_str w' j = w_str w j).
Proof.
  intros I Z0 G0 Nd Na Hv Hp. unfold plus_move.
  destruct (eval_arg_ok 0 w g v I Hv (arg_no0 _ _ Hv)) as (c & n & E1 & _ & _).
  rewrite E1. cbn [bind].
  destruct (move_ok 0 a w g I) as (w1 & F1 & I1 & M1 & M2). rewrite F1. cbn [bind].
  set (g1 := put_seq a [] (put_seq 0 (g a) g)) in *.
  assert (G1 : forall j, j <> 0%nat -> g1 j = put_seq a [] g j).
  { intros j N. unfold g1, put_seq. destruct (j =? a)%nat; [easy|].
    apply Nat.eqb_neq in N. now rewrite N. }
  assert (T : arg_text g1 v = arg_text (put_seq a [] g) v).
  { destruct v; cbn in *; auto. rewrite G1 by easy. easy. }
  assert (Hv1 : arg_ok g1 v).
  { destruct v; cbn in *; auto. destruct Hv as (H1 & H2). split; [easy|].
    rewrite G1, put_seq_neq by easy. easy. }
  destruct (eval_arg_ok 0 w1 g1 v I1 Hv1 (arg_no0 _ _ Hv)) as (c' & n' & E1' & E2' & E3').
  assert (c' = c) as ->.
  { destruct v; cbn in E1, E1', Hv, Hp; try congruence.
    rewrite M1 in E1' by easy. congruence. }
  rewrite T in E3'.
  destruct (cput_ok 0 w1 g1 [c] [n'] [arg_text (put_seq a [] g) v]) as (w2 & P1 & I2 & S2); auto.
  { cbn. now rewrite E2'. }
  { cbn. constructor; [exact E3'|constructor]. }
  rewrite P1. cbn [bind].
  destruct (finish_ok d (g a ++ arg_text (put_seq a [] g) v) w2 (put_seq a [] g) w1)
    as (w3 & Q1 & I3 & Z3 & S3); auto.
  - eapply inv_ext; [|exact I2]. intros i. cbn [concat]. rewrite app_nil_r.
    assert (g1 0%nat = g a) as ->.
    { unfold g1. rewrite put_seq_neq by congruence. now rewrite put_seq_eq. }
    destruct (Nat.eq_dec i 0) as [->|N]; [now rewrite !put_seq_eq|].
    rewrite !(put_seq_neq 0) by easy. now apply G1.
  - rewrite put_seq_neq by congruence. exact G0.
  - exists w3. split; [exact Q1|]. split; [exact I3|]. split; [exact Z3|].
    intros j N1 N2 N3. rewrite S3 by easy. now apply M1.
Qed.
