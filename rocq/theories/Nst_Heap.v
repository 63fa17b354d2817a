(** Lemmas about the heap of [Nst_Model]. *)

From Verif Require Import Base Nst_Model Nst_Spec.

#[local] Ltac Zify.zify_post_hook ::= idtac.

Lemma hupd_eq {A} i (x : A) f : hupd i x f i = x.
Proof. unfold hupd. now rewrite Nat.eqb_refl. Qed.

Lemma hupd_neq {A} i j (x : A) f : j <> i -> hupd i x f j = f j.
Proof. intros N. unfold hupd. apply Nat.eqb_neq in N. now rewrite N. Qed.

Lemma put_seq_eq i l g : put_seq i l g i = l.
Proof. unfold put_seq. now rewrite Nat.eqb_refl. Qed.

Lemma put_seq_neq i j l g : j <> i -> put_seq i l g j = g j.
Proof. intros N. unfold put_seq. apply Nat.eqb_neq in N. now rewrite N. Qed.

Lemma defined_map l : defined (map Some l) = Some l.
Proof. induction l as [|z l IH]; cbn; [easy|]. now rewrite IH. Qed.

Lemma firstn_map_app {A B} (f : A -> B) n l X :
  (n <= length l)%nat -> firstn n (map f l ++ X) = map f (firstn n l).
Proof.
  intros Hn. rewrite firstn_app, map_length.
  replace (n - length l)%nat with O by lia. rewrite firstn_O, app_nil_r.
  apply firstn_map.
Qed.

Lemma skipn_map_app {A B} (f : A -> B) n l X :
  (n <= length l)%nat -> skipn n (map f l ++ X) = map f (skipn n l) ++ X.
Proof.
  intros Hn. rewrite skipn_app, map_length.
  replace (n - length l)%nat with O by lia. cbn [skipn]. f_equal.
  apply skipn_map.
Qed.

Lemma read_at_prefix h b s X off n :
  blk h b = Some (map Some s ++ X) -> (off + n <= length s)%nat ->
  read_at b off n h = Some (firstn n (skipn off s)).
Proof.
  intros Hb Hn. unfold read_at. rewrite Hb.
  match goal with |- context [(?a <=? ?b)%nat] =>
    replace (a <=? b)%nat with true
      by (symmetry; apply Nat.leb_le; rewrite app_length, map_length; lia) end.
  rewrite skipn_map_app by lia. rewrite firstn_map_app by (rewrite skipn_length; lia).
  apply defined_map.
Qed.

Lemma write_cells_app s X l :
  write_cells (length s) l (map Some s ++ X) = map Some (s ++ l) ++ skipn (length l) X.
Proof.
  unfold write_cells. rewrite firstn_map_app by lia. rewrite firstn_all.
  rewrite skipn_app, map_length, skipn_all2 by (rewrite map_length; lia).
  replace (length s + length l - length s)%nat with (length l) by lia.
  now rewrite map_app, app_assoc.
Qed.

Lemma write_cells_length off l c :
  (off + length l <= length c)%nat -> length (write_cells off l c) = length c.
Proof.
  intros Hn. unfold write_cells. rewrite !app_length, map_length, firstn_length, skipn_length. lia.
Qed.

Lemma write_at_app h b s X l :
  blk h b = Some (map Some s ++ X) -> (length l <= length X)%nat ->
  write_at b (length s) l h =
  Some (set_blk b (Some (map Some (s ++ l) ++ skipn (length l) X)) h).
Proof.
  intros Hb Hn. unfold write_at. rewrite Hb.
  match goal with |- context [(?a <=? ?b)%nat] =>
    replace (a <=? b)%nat with true
      by (symmetry; apply Nat.leb_le; rewrite app_length, map_length; lia) end.
  now rewrite write_cells_app.
Qed.

(** Writing at any place. *)
Lemma write_at_some h b c off l :
  blk h b = Some c -> (off + length l <= length c)%nat ->
  write_at b off l h = Some (set_blk b (Some (write_cells off l c)) h).
Proof.
  intros Hb Hn. unfold write_at. rewrite Hb.
  destruct (Nat.leb_spec (off + length l) (length c)); [easy|lia].
Qed.

Lemma set_blk_eq b c h : blk (set_blk b c h) b = c.
Proof. apply hupd_eq. Qed.

Lemma set_blk_neq b c h b' : b' <> b -> blk (set_blk b c h) b' = blk h b'.
Proof. apply hupd_neq. Qed.

(** The loop that fills. *)
Lemma fill_app n : forall h b s X ch,
  blk h b = Some (map Some s ++ X) -> (n <= length X)%nat ->
  exists h', fill b (length s) n ch h = Some h' /\
    blk h' b = Some (map Some (s ++ repeat ch n) ++ skipn n X) /\
    (forall b', b' <> b -> blk h' b' = blk h b') /\ nxt h' = nxt h.
Proof.
  induction n as [|n IH]; intros h b s X ch Hb Hn; cbn.
  - exists h. rewrite app_nil_r. auto.
  - rewrite (write_at_app h b s X [ch] Hb) by (cbn; lia). cbn [bind].
    destruct (IH (set_blk b (Some (map Some (s ++ [ch]) ++ skipn 1 X)) h) b (s ++ [ch])
                 (skipn 1 X) ch) as (h' & Hf & Hc & Ho & Hx).
    { apply set_blk_eq. }
    { rewrite skipn_length. lia. }
    rewrite app_length in Hf. cbn [length] in Hf.
    replace (length s + 1)%nat with (S (length s)) in Hf by lia.
    exists h'. split; [exact Hf|]. split; [|split].
    + rewrite Hc. rewrite <- app_assoc. cbn [app repeat]. do 2 f_equal.
      destruct X as [|x X]; [cbn in Hn; lia|]. reflexivity.
    + intros b' N. rewrite Ho by easy. now apply set_blk_neq.
    + rewrite Hx. reflexivity.
Qed.

(** The loop that copies elements. *)
Lemma copy_elems_app n : forall h b c s X t Y,
  b <> c -> blk h b = Some (map Some s ++ X) -> blk h c = Some (map Some t ++ Y) ->
  (n <= length X)%nat -> (length s + n <= length t)%nat ->
  exists h', copy_elems b c (length s) n h = Some h' /\
    blk h' b = Some (map Some (s ++ firstn n (skipn (length s) t)) ++ skipn n X) /\
    (forall b', b' <> b -> blk h' b' = blk h b') /\ nxt h' = nxt h.
Proof.
  induction n as [|n IH]; intros h b c s X t Y N Hb Hc Hn Ht; cbn [copy_elems].
  - exists h. rewrite firstn_O, app_nil_r. auto.
  - rewrite (read_at_prefix h c t Y (length s) 1 Hc) by lia. cbn [bind].
    destruct (skipn (length s) t) as [|z t'] eqn:Es.
    { apply (f_equal (@length _)) in Es. rewrite skipn_length in Es. cbn in Es. lia. }
    cbn [firstn].
    rewrite (write_at_app h b s X [z] Hb) by (cbn; lia). cbn [bind].
    destruct (IH (set_blk b (Some (map Some (s ++ [z]) ++ skipn 1 X)) h) b c (s ++ [z])
                 (skipn 1 X) t Y) as (h' & Hf & Hc' & Ho & Hx); auto.
    { apply set_blk_eq. }
    { rewrite set_blk_neq by congruence. exact Hc. }
    { rewrite skipn_length. lia. }
    { rewrite app_length. cbn. lia. }
    rewrite app_length in Hf, Hc'. cbn [length] in Hf, Hc'.
    replace (length s + 1)%nat with (S (length s)) in Hf, Hc' by lia.
    exists h'. split; [exact Hf|]. split; [|split].
    + rewrite Hc'.
      replace (skipn (S (length s)) t) with t'.
      * rewrite <- app_assoc. cbn [app]. do 2 f_equal.
        destruct X as [|x X]; [cbn in Hn; lia|]. reflexivity.
      * clear - Es. revert t Es. induction s as [|a s IHs]; intros t Es; cbn in *.
        -- now subst.
        -- destruct t as [|x t]; [easy|]. now apply IHs.
    + intros b' Nb. rewrite Ho by easy. now apply set_blk_neq.
    + rewrite Hx. reflexivity.
Qed.

Lemma until0_le l : (length (until0 l) <= length l)%nat.
Proof. induction l as [|z l IH]; cbn; [lia|]. destruct (z =? 0)%Z; cbn; lia. Qed.

Lemma until0_prefix l : until0 l = firstn (length (until0 l)) l.
Proof.
  induction l as [|z l IH]; cbn; [easy|]. destruct (z =? 0)%Z; cbn; [easy|]. now rewrite <- IH.
Qed.

Lemma strlen_until0 s X : strlen_cells (map Some s ++ Some 0%Z :: X) = Some (length (until0 s)).
Proof.
  induction s as [|z s IH]; cbn; [easy|]. destruct (z =? 0)%Z; [easy|]. now rewrite IH.
Qed.
