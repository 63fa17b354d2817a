From Verif Require Import Base Lay_Model Lay_Spec.
Local Open Scope N_scope.

(** ** Arithmetic *)
Lemma align_up_ok : forall x a, 0 < a -> x + a < 2 ^ 32 ->
  x <= align_up x a /\ align_up x a < x + a /\ align_up x a mod a = 0.
Proof.
  intros x a A H. unfold align_up.
  replace (u32 (x + a + (2 ^ 32 - 1))) with (x + a - 1).
  2:{ unfold u32. replace (x + a + (2 ^ 32 - 1)) with (x + a - 1 + 1 * 2 ^ 32) by lia.
      rewrite N.mod_add by lia. rewrite N.mod_small; lia. }
  pose proof (N.div_mod (x + a - 1) a ltac:(lia)) as D. pose proof (N.mod_lt (x + a - 1) a ltac:(lia)) as M.
  generalize dependent ((x + a - 1) / a). generalize dependent ((x + a - 1) mod a). intros r R q D.
  rewrite N.mul_comm in D. rewrite u32_small by lia. rewrite N.mod_mul by lia. lia.
Qed.
Lemma pick_packet_in : forall r cap, In cap [1; 2; 4; 8] ->
  In (pick_packet r cap) [1; 2; 4; 8] /\ pick_packet r cap <= cap.
Proof.
  intros r cap H. unfold pick_packet.
  assert (G : forall f c, In c [1; 2; 4; 8] -> In (pick_packet_from f r c) [1; 2; 4; 8] /\ pick_packet_from f r c <= c).
  { clear. induction f; intros c C; cbn [pick_packet_from].
    - cbn in C. cbn. intuition lia.
    - destruct (N.ltb_spec c 2); [cbn in C; cbn; intuition lia|].
      destruct (_ <=? _); [split; [exact C|lia]|].
      assert (In (c / 2) [1; 2; 4; 8] /\ c / 2 <= c) as [I L] by (cbn in C; intuition subst; try lia; vm_compute; intuition discriminate).
      destruct (IHf _ I). split; [auto|lia]. }
  now apply G.
Qed.
Lemma bsize_in : forall b, In (bsize b) [8; 4; 2; 1].
Proof.
  intros. unfold bsize. assert (N.land b 3 < 4) as L.
  { change 3 with (N.ones 2). rewrite N.land_ones. apply N.mod_lt. discriminate. }
  generalize dependent (N.land b 3). intros k K.
  assert (k = 0 \/ k = 1 \/ k = 2 \/ k = 3) as [-> | [-> | [-> | ->]]] by lia; vm_compute; auto 6.
Qed.
Lemma bsize_pos : forall b, 1 <= bsize b <= 8.
Proof. intros. pose proof (bsize_in b) as H. cbn in H. intuition lia. Qed.

(** [a] divides [b] and both are powers of two up to 64. *)
Definition p2 := [1; 2; 4; 8; 16; 32; 64].
Lemma p2_le_div : forall a b, In a p2 -> In b p2 -> a <= b -> b mod a = 0.
Proof. intros a b A B. cbn in A, B. intuition subst; try (vm_compute; reflexivity); lia. Qed.
Lemma mod_trans : forall x a b, 0 < a -> 0 < b -> b mod a = 0 -> x mod b = 0 -> x mod a = 0.
Proof.
  intros x a b A B H X. apply N.mod_divide in H; [|lia]. apply N.mod_divide in X; [|lia].
  apply N.mod_divide; [lia|]. eapply N.divide_trans; eauto.
Qed.
Lemma p2_pos : forall a, In a p2 -> 1 <= a <= 64.
Proof. intros a A. cbn in A. intuition lia. Qed.

Lemma bsize_p2 : forall b, In (bsize b) p2.
Proof. intros. pose proof (bsize_in b) as H. cbn in *. intuition. Qed.
Lemma bsize_add4 : forall c, c < 4 -> bsize (4 + c) = bsize c.
Proof. intros c C. assert (c = 0 \/ c = 1 \/ c = 2 \/ c = 3) as [-> | [-> | [-> | ->]]] by lia; reflexivity. Qed.

(** ** Order of the buckets *)
Lemma ins_perm : forall al c l, Permutation (ins al c l) (c :: l).
Proof.
  induction l; cbn [ins]; [reflexivity|]. destruct (_ <? _); [|reflexivity].
  rewrite IHl. apply perm_swap.
Qed.
Lemma bucket_order_perm : forall llvm al, Permutation (bucket_order llvm al) [0; 1; 2; 3].
Proof.
  intros [] al; unfold bucket_order; [|reflexivity]. rewrite <- Permutation_rev. cbn [fold_left].
  rewrite ins_perm. rewrite ins_perm. rewrite ins_perm.
  apply Permutation_sym. apply (Permutation_rev [0; 1; 2; 3]).
Qed.

(** ** Counting *)
Definition total (ss : list slot) (bs : list N) : N := fold_right (fun b n => count b ss + n) 0 bs.
Lemma total_perm : forall ss a b, Permutation a b -> total ss a = total ss b.
Proof.
  intros ss a b P. unfold total. induction P; cbn [fold_right]; [reflexivity|rewrite IHP; reflexivity| |congruence].
  rewrite !N.add_assoc, (N.add_comm (count y ss)). reflexivity.
Qed.
Lemma count_cons : forall b s ss, count b (s :: ss) = (if snd s =? b then 1 else 0) + count b ss.
Proof. intros. unfold count. cbn [filter]. destruct (snd s =? b); cbn [length]; lia. Qed.
Lemma count_app : forall b a c, count b (a ++ c) = count b a + count b c.
Proof. intros. unfold count. rewrite filter_app, app_length. apply Nat2N.inj_add. Qed.
Lemma total_all : forall ss, buckets_ok ss -> total ss [0; 1; 2; 3; 4; 5; 6; 7] = N.of_nat (length ss).
Proof.
  intros ss B. induction B as [|s ss S B IH]; [reflexivity|].
  cbn [total fold_right length] in *. rewrite !count_cons.
  assert (E : (if snd s =? 0 then 1 else 0) + ((if snd s =? 1 then 1 else 0) + ((if snd s =? 2 then 1 else 0) +
    ((if snd s =? 3 then 1 else 0) + ((if snd s =? 4 then 1 else 0) + ((if snd s =? 5 then 1 else 0) +
    ((if snd s =? 6 then 1 else 0) + (if snd s =? 7 then 1 else 0))))))) = 1).
  { cbn beta in S. destruct (N.eq_dec (snd s) 0) as [->|]; [reflexivity|]. destruct (N.eq_dec (snd s) 1) as [->|]; [reflexivity|].
    destruct (N.eq_dec (snd s) 2) as [->|]; [reflexivity|]. destruct (N.eq_dec (snd s) 3) as [->|]; [reflexivity|].
    destruct (N.eq_dec (snd s) 4) as [->|]; [reflexivity|]. destruct (N.eq_dec (snd s) 5) as [->|]; [reflexivity|].
    destruct (N.eq_dec (snd s) 6) as [->|]; [reflexivity|]. destruct (N.eq_dec (snd s) 7) as [->|]; [reflexivity|]. lia. }
  unfold total in IH. lia.
Qed.

(** ** Placement of the buckets *)
Section Place.
Variable ss : list slot.

Fixpoint placed_at (order : list (N * N)) (po : list N) (lo hi : N) : Prop :=
  match order with
  | [] => lo = hi
  | (b, al) :: r =>
      if count b ss =? 0 then placed_at r po lo hi
      else lo <= at_ b po /\ at_ b po mod al = 0 /\ placed_at r po (at_ b po + count b ss * bsize b) hi
  end.
Fixpoint slots_at (order : list N) (ps : list N) (lo : N) : Prop :=
  match order with
  | [] => True
  | b :: r => (count b ss <> 0 -> at_ b ps = lo) /\ slots_at r ps (lo + count b ss)
  end.
Fixpoint budget (order : list (N * N)) : N :=
  match order with [] => 0 | (b, al) :: r => 64 + count b ss * 8 + budget r end.

Lemma at_put_eq : forall b x l, b < N.of_nat (length l) -> at_ b (put b x l) = x.
Proof. intros. unfold at_, put. apply nth_set_nth_eq. lia. Qed.
Lemma at_put_neq : forall b c x l, b <> c -> at_ c (put b x l) = at_ c l.
Proof. intros. unfold at_, put. apply nth_set_nth_neq. lia. Qed.

Record outcome (order : list (N * N)) (p p' : pstate) : Prop := {
  o_len1 : length (p_slot p') = 8%nat;
  o_len2 : length (p_offset p') = 8%nat;
  o_len3 : length (l_bucket (p_layout p')) = 4%nat;
  o_placed : placed_at order (p_offset p') (p_next_offset p) (p_next_offset p');
  o_slots : slots_at (map fst order) (p_slot p') (p_next_slot p);
  o_next : p_next_slot p' = p_next_slot p + total ss (map fst order);
  o_bound : p_next_offset p <= p_next_offset p' <= p_next_offset p + budget order;
  o_other : forall b, ~ In b (map fst order) ->
    at_ b (p_slot p') = at_ b (p_slot p) /\ at_ b (p_offset p') = at_ b (p_offset p) /\
    nth (N.to_nat b) (l_bucket (p_layout p')) (0, 0) = nth (N.to_nat b) (l_bucket (p_layout p)) (0, 0);
  o_bucket : forall b, In b (map fst order) -> b < 4 -> count b ss <> 0 ->
    nth (N.to_nat b) (l_bucket (p_layout p')) (0, 0) = (l_start (p_layout p) + at_ b (p_slot p'), count b ss);
  o_bucket0 : forall b, In b (map fst order) -> b < 4 -> count b ss = 0 ->
    nth (N.to_nat b) (l_bucket (p_layout p')) (0, 0) = nth (N.to_nat b) (l_bucket (p_layout p)) (0, 0);
  o_start : l_start (p_layout p') = l_start (p_layout p);
  o_count : l_count (p_layout p') = l_count (p_layout p);
  o_offset : l_offset (p_layout p') = l_offset (p_layout p);
  o_cend : forall b, In b (map fst order) -> b < 4 -> count b ss <> 0 ->
    at_ b (p_offset p') + count b ss * bsize b <= l_offset (p_layout p) + l_coalesce_end (p_layout p');
  o_cend1 : l_coalesce_end (p_layout p) <= l_coalesce_end (p_layout p') <=
    N.max (l_coalesce_end (p_layout p)) (p_next_offset p' - l_offset (p_layout p));
  o_cend2 : Forall (fun b => 4 <= b) (map fst order) -> l_coalesce_end (p_layout p') = l_coalesce_end (p_layout p)
}.

Lemma bytes_le : forall b, count b ss * bsize b <= count b ss * 8.
Proof. intros. apply N.mul_le_mono_l. apply bsize_pos. Qed.

Lemma place_ok : forall order p,
  NoDup (map fst order) -> Forall (fun ba => fst ba < 8 /\ In (snd ba) p2) order ->
  length (p_slot p) = 8%nat -> length (p_offset p) = 8%nat -> length (l_bucket (p_layout p)) = 4%nat ->
  p_next_offset p + budget order < 2 ^ 32 ->
  l_start (p_layout p) + p_next_slot p + total ss (map fst order) < 2 ^ 32 ->
  l_offset (p_layout p) <= p_next_offset p ->
  outcome order p (fold_left (place ss) order p).
Proof.
  induction order as [|[b al] order IH]; intros p ND OK L1 L2 L3 BU SL LO.
  - cbn [fold_left]. constructor; auto; try (cbn; tauto || lia); cbn; intros; try tauto; lia.
  - cbn [map fst] in ND. inversion_clear ND as [|? ? NI ND']. inversion_clear OK as [|? ? [B AL] OK'].
    cbn [fst snd] in B, AL. cbn [fold_left]. cbn [budget] in BU. cbn [map fst total fold_right] in SL. fold (total ss (map fst order)) in SL.
    pose proof (p2_pos _ AL) as ALP. pose proof (bytes_le b) as BY.
    destruct (N.eqb_spec (count b ss) 0) as [Z|Z].
    + assert (place ss p (b, al) = p) as -> by (unfold place; rewrite Z; reflexivity).
      destruct (IH p ND' OK' L1 L2 L3) as []; try lia.
      constructor; auto.
      * cbn [placed_at]. rewrite Z. auto.
      * cbn [map fst slots_at]. split; [congruence|]. rewrite Z, N.add_0_r. auto.
      * cbn [map fst total fold_right]. rewrite Z. fold (total ss (map fst order)). lia.
      * cbn [budget]. lia.
      * cbn [map fst]. intros c C. apply o_other0. intros ?. apply C. right; auto.
      * cbn [map fst]. intros c [<-|C]; [congruence|auto].
      * cbn [map fst]. intros c [<-|C] ? ?; [|auto]. apply o_other0. auto.
      * cbn [map fst]. intros c [<-|C]; [congruence|auto].
      * intros F. inversion_clear F. auto.
    + destruct (align_up_ok (p_next_offset p) al) as (A1 & A2 & A3); [lia|lia|].
      set (off := align_up (p_next_offset p) al) in *.
      assert (LOFF : l_offset (p_layout p) < 2 ^ 32) by lia.
      assert (SUB : sub32 off (l_offset (p_layout p)) = off - l_offset (p_layout p)).
      { unfold sub32, u32. replace (off + 2 ^ 32 - l_offset (p_layout p)) with (off - l_offset (p_layout p) + 1 * 2 ^ 32) by lia.
        rewrite N.mod_add by lia. apply N.mod_small. lia. }
      set (p1 := place ss p (b, al)).
      assert (E : p1 = mkP (put b (p_next_slot p) (p_slot p)) (put b off (p_offset p)) (p_next_slot p + count b ss)
                     (off + count b ss * bsize b) (p_layout p1) /\
                  (if b <? 4 then p_layout p1 = mkLayout (l_start (p_layout p)) (l_count (p_layout p)) (l_offset (p_layout p))
                     (N.max (l_coalesce_end (p_layout p)) (off - l_offset (p_layout p) + count b ss * bsize b))
                     (u32 (l_coalesce_count (p_layout p) + count b ss))
                     (set_nth (N.to_nat b) (l_start (p_layout p) + p_next_slot p, count b ss) (l_bucket (p_layout p)))
                   else p_layout p1 = p_layout p)).
      { unfold p1, place. destruct (N.eqb_spec (count b ss) 0) as [|_]; [lia|]. fold off.
        rewrite SUB, (u32_small (count b ss * bsize b)) by lia. rewrite (u32_small (p_next_slot p + count b ss)) by lia.
        rewrite (u32_small (off + _)) by lia. rewrite (u32_small (off - _ + _)) by lia. rewrite (u32_small (l_start _ + _)) by lia.
        cbn [p_layout]. destruct (b <? 4); split; reflexivity. }
      destruct E as [E EL]. clearbody p1.
      assert (S1 : p_slot p1 = put b (p_next_slot p) (p_slot p)) by (rewrite E; reflexivity).
      assert (S2 : p_offset p1 = put b off (p_offset p)) by (rewrite E; reflexivity).
      assert (S3 : p_next_slot p1 = p_next_slot p + count b ss) by (rewrite E; reflexivity).
      assert (S4 : p_next_offset p1 = off + count b ss * bsize b) by (rewrite E; reflexivity).
      clear E.
      assert (LS : l_start (p_layout p1) = l_start (p_layout p)) by (destruct (b <? 4); rewrite EL; reflexivity).
      assert (LC : l_count (p_layout p1) = l_count (p_layout p)) by (destruct (b <? 4); rewrite EL; reflexivity).
      assert (LO1 : l_offset (p_layout p1) = l_offset (p_layout p)) by (destruct (b <? 4); rewrite EL; reflexivity).
      assert (LB : length (l_bucket (p_layout p1)) = 4%nat) by (destruct (b <? 4); rewrite EL; [cbn [l_bucket]; rewrite set_nth_length|]; auto).
      destruct (IH p1 ND' OK') as []; try (rewrite ?S1, ?S2; unfold put; rewrite set_nth_length); auto; try lia.
      assert (AT1 : at_ b (p_slot p1) = p_next_slot p) by (rewrite S1; apply at_put_eq; lia).
      assert (AT2 : at_ b (p_offset p1) = off) by (rewrite S2; apply at_put_eq; lia).
      destruct (o_other0 b NI) as (O1 & O2 & O3).
      assert (CE : l_coalesce_end (p_layout p) <= l_coalesce_end (p_layout p1) <=
                   N.max (l_coalesce_end (p_layout p)) (off + count b ss * bsize b - l_offset (p_layout p))).
      { destruct (b <? 4); rewrite EL; cbn [l_coalesce_end]; lia. }
      constructor; auto; try congruence.
      * cbn [placed_at]. destruct (N.eqb_spec (count b ss) 0) as [|_]; [lia|]. rewrite O2, AT2. split; [exact A1|]. split; [exact A3|].
        rewrite <- S4. auto.
      * cbn [map fst slots_at]. split; [intros _; congruence|]. rewrite <- S3. auto.
      * cbn [map fst total fold_right]. fold (total ss (map fst order)). lia.
      * cbn [budget]. lia.
      * cbn [map fst]. intros c C. assert (b <> c) by (intros ->; apply C; left; reflexivity).
        assert (~ In c (map fst order)) as NC by (intros ?; apply C; right; auto). destruct (o_other0 c NC) as (X & Y & Z').
        rewrite X, Y, Z', S1, S2, !at_put_neq by auto. repeat split; auto.
        destruct (b <? 4); rewrite EL; auto. cbn [l_bucket]. apply nth_set_nth_neq. lia.
      * cbn [map fst]. intros c [<-|C] C4 CN; [|rewrite o_bucket1 by auto; congruence].
        rewrite O3, O1, AT1. destruct (N.ltb_spec b 4); [|lia]. rewrite EL. cbn [l_bucket]. apply nth_set_nth_eq. lia.
      * cbn [map fst]. intros c [<-|C] C4 CN; [lia|]. rewrite o_bucket2 by auto.
        destruct (b <? 4); rewrite EL; auto. cbn [l_bucket]. apply nth_set_nth_neq. intros E. apply NI. replace b with c by lia. auto.
      * cbn [map fst]. intros c [<-|C] C4 CN; [|rewrite <- LO1; auto]. rewrite O2, AT2.
        destruct (N.ltb_spec b 4); [|lia]. rewrite EL in o_cend3. cbn [l_coalesce_end l_offset] in o_cend3. lia.
      * split; [lia|]. rewrite LO1 in o_cend3. lia.
      * cbn [map fst]. intros F. inversion_clear F. rewrite o_cend4 by auto. destruct (N.ltb_spec b 4); [lia|]. congruence.
Qed.
End Place.
