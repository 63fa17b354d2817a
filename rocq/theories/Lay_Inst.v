From Verif Require Import Base Lay_Model Lay_Spec Lay_Proofs Lay_Scatter.
Local Open Scope N_scope.

Lemma pick8 : forall r, pick_packet r 8 = if 6 <=? r then 8 else if 3 <=? r then 4 else if 2 <=? r then 2 else 1.
Proof.
  intros r. destruct (N.ltb_spec r 8).
  - assert (r = 0 \/ r = 1 \/ r = 2 \/ r = 3 \/ r = 4 \/ r = 5 \/ r = 6 \/ r = 7) as X by lia.
    repeat (destruct X as [->|X]; [reflexivity|]). subst; reflexivity.
  - destruct (N.leb_spec 6 r); [|lia]. unfold pick_packet. cbn [pick_packet_from]. destruct (N.ltb_spec r 8); [lia|]. reflexivity.
Qed.
Lemma pick4 : forall r, pick_packet r 4 = if 3 <=? r then 4 else if 2 <=? r then 2 else 1.
Proof.
  intros r. destruct (N.ltb_spec r 4).
  - assert (r = 0 \/ r = 1 \/ r = 2 \/ r = 3) as X by lia.
    repeat (destruct X as [->|X]; [reflexivity|]). subst; reflexivity.
  - destruct (N.leb_spec 3 r); [|lia]. unfold pick_packet. cbn [pick_packet_from]. destruct (N.ltb_spec r 4); [lia|]. reflexivity.
Qed.
Lemma pick2 : forall r, pick_packet r 2 = if 2 <=? r then 2 else 1.
Proof.
  intros r. destruct (N.ltb_spec r 2).
  - assert (r = 0 \/ r = 1) as X by lia.
    repeat (destruct X as [->|X]; [reflexivity|]). subst; reflexivity.
  - destruct (N.leb_spec 2 r); [|lia]. unfold pick_packet. cbn [pick_packet_from]. destruct (N.ltb_spec r 2); [lia|]. reflexivity.
Qed.
Lemma pick1 : forall r, pick_packet r 1 = 1.
Proof. reflexivity. Qed.
Arguments pick_packet : simpl never.
Arguments pick_chunk : simpl never.
Arguments max_field : simpl never.
Arguments bsize : simpl never.
Lemma pick_mono : forall cap r r', In cap [1; 2; 4; 8] -> r' <= r -> pick_packet r' cap <= pick_packet r cap.
Proof.
  intros cap r r' C L. cbn in C. destruct C as [<-|[<-|[<-|[<-|[]]]]]; rewrite ?pick1, ?pick2, ?pick4, ?pick8;
    repeat match goal with |- context [if ?a <=? ?b then _ else _] => destruct (N.leb_spec a b) end; lia.
Qed.
Lemma pick_p2 : forall cap r, In cap [1; 2; 4; 8] -> In (pick_packet r cap) p2.
Proof. intros cap r C. destruct (pick_packet_in r cap C) as [I _]. cbn in *. intuition. Qed.

Lemma pick_bsize : forall cap r c, In cap [1; 2; 4; 8] ->
  In (pick_packet r cap * bsize c) p2 /\ u32 (pick_packet r cap * bsize c) = pick_packet r cap * bsize c /\
  bsize c <= pick_packet r cap * bsize c /\ pick_packet r cap * bsize c <= cap * 8.
Proof.
  intros cap r c C. destruct (pick_packet_in r cap C) as [I L]. pose proof (bsize_in c) as B.
  assert (pick_packet r cap * bsize c <= cap * 8) by (apply N.mul_le_mono; [exact L|apply bsize_pos]).
  split; [|split; [|split; [|assumption]]].
  - cbn in I, B. destruct I as [<-|[<-|[<-|[<-|[]]]]]; destruct B as [<-|[<-|[<-|[<-|[]]]]]; vm_compute; tauto.
  - apply u32_small. assert (cap * 8 <= 64) by (cbn in C; intuition lia). lia.
  - pose proof (bsize_pos c). rewrite <- (N.mul_1_l (bsize c)) at 1. apply N.mul_le_mono_r. cbn in I. intuition lia.
Qed.

(** ** Alignments *)
Lemma max_field_in : forall ss, In (max_field ss) [1; 2; 4; 8] /\ (forall s, In s ss -> bsize (snd s) <= max_field ss).
Proof.
  intros ss. unfold max_field.
  assert (G : forall ss m, In m [1; 2; 4; 8] -> let m' := fold_left (fun m (s : slot) => N.max m (bsize (snd s))) ss m in
     In m' [1; 2; 4; 8] /\ m <= m' /\ (forall s, In s ss -> bsize (snd s) <= m')).
  { clear. induction ss as [|s ss IH]; intros m M; cbn [fold_left].
    - cbn. cbn in M. intuition lia.
    - destruct (IH (N.max m (bsize (snd s)))) as (A & B & C).
      + pose proof (bsize_in (snd s)) as X. cbn in M, X |- *. lia.
      + cbn zeta. split; [exact A|]. split; [lia|]. intros t [<-|T]; [lia|auto]. }
  destruct (G ss 1) as (A & _ & B); [cbn; auto|]. auto.
Qed.
Lemma p2_max : forall a b, In a p2 -> In b p2 -> In (N.max a b) p2.
Proof. intros a b A B. destruct (N.max_spec a b) as [[_ ->]|[_ ->]]; auto. Qed.
Lemma pick_chunk_p2 : forall o r a, In a [8; 16; 32] -> In (pick_chunk o r a) [4; 8; 16; 32] /\ pick_chunk o r a <= a.
Proof.
  intros o r a A. unfold pick_chunk.
  assert (G : forall f c, In c [4; 8; 16; 32] -> In (pick_chunk_from f o r c) [4; 8; 16; 32] /\ pick_chunk_from f o r c <= c).
  { clear. induction f; intros c C; cbn [pick_chunk_from].
    - cbn in C. cbn. intuition lia.
    - destruct (N.ltb_spec c 8); [cbn in C; cbn; intuition lia|].
      destruct (_ && _); [split; [exact C|lia]|].
      assert (In (c / 2) [4; 8; 16; 32] /\ c / 2 <= c) as [I L] by (cbn in C; intuition subst; try lia; vm_compute; intuition discriminate).
      destruct (IHf _ I). split; [auto|lia]. }
  apply G. cbn in *; intuition.
Qed.

(** Facts about one laid out instance: its slots [out], its record [l], the end [hi] of its data. *)
Record instance_ok (lo ds : N) (ss : list slot) (out : list placed) (l : layout) (hi : N) : Prop := {
  i_perm : Permutation (map forget out) ss;
  i_packed : packed (l_offset l) hi out;
  i_after : ds <= l_offset l;
  i_start : l_start l = lo;
  i_count : l_count l = N.of_nat (length ss)
}.

Lemma count_in : forall c ss, count c ss <> 0 -> exists s, In s ss /\ snd s = c.
Proof.
  intros c ss C. rewrite <- inb_length in C. destruct (inb c ss) as [|s r] eqn:E; [cbn in C; lia|].
  assert (I : In s (inb c ss)) by (rewrite E; left; reflexivity). apply filter_In in I.
  exists s. split; [tauto|]. apply N.eqb_eq. tauto.
Qed.

Section Inst.
Variables (llvm : bool) (alignment cap : N).
Hypothesis BK : backend_ok llvm alignment cap.
Variable ss : list slot.
Hypothesis BO : buckets_ok ss.
Notation al := (bucket_align llvm cap ss).
Notation ba := (block_align llvm alignment cap ss).

Lemma al_ok : forall c, In (al c) p2 /\ bsize c <= al c.
Proof.
  intros c. unfold bucket_align. unfold backend_ok in BK. destruct llvm.
  - destruct BK as [C _]. destruct (pick_bsize cap (count c ss) c C) as (A & -> & D & _). auto.
  - rewrite N.mul_1_l. pose proof (bsize_pos c). rewrite u32_small by lia. split; [apply bsize_p2|lia].
Qed.
Lemma al_llvm : llvm = true -> forall c, al c = pick_packet (count c ss) cap * bsize c.
Proof. intros E c. unfold bucket_align, backend_ok in *. rewrite E in *. apply pick_bsize. tauto. Qed.

Lemma ba_ok : In ba p2 /\ (forall s, In s ss -> bsize (snd s) <= ba) /\ (forall c, In c [0; 1; 2; 3] -> count c ss <> 0 -> al c <= ba).
Proof.
  destruct (max_field_in ss) as [M1 M2]. assert (M3 : In (max_field ss) p2) by (cbn in M1 |- *; tauto).
  assert (BIG : forall c, count c ss <> 0 -> bsize c <= max_field ss).
  { intros c C. destruct (count_in c ss C) as (s & S & <-). auto. }
  pose proof al_ok as ALOK. unfold block_align. pose proof BK as BK'. unfold backend_ok in BK'. clear BK. destruct llvm.
  - assert (G : forall cs m, In m p2 -> let m' := fold_left (fun m c => if count c ss =? 0 then m else N.max m (bucket_align true cap ss c)) cs m in
       In m' p2 /\ m <= m' /\ forall c, In c cs -> count c ss <> 0 -> bucket_align true cap ss c <= m').
    { induction cs as [|c cs IH]; intros m M; cbn [fold_left]; [cbn zeta; split; [exact M|]; split; [lia|]; intros ? []|].
      destruct (IH (if count c ss =? 0 then m else N.max m (bucket_align true cap ss c))) as (A & B & C).
      - destruct (count c ss =? 0); auto. apply p2_max; auto. apply ALOK.
      - cbn zeta. split; [exact A|]. destruct (N.eqb_spec (count c ss) 0) as [Z|Z].
        + split; [exact B|]. intros d [<-|D]; [lia|auto].
        + split; [lia|]. intros d [<-|D]; [lia|auto]. }
    destruct (G [0; 1; 2; 3] (max_field ss) M3) as (A & B & C). split; [exact A|]. split; [intros s S; specialize (M2 s S); lia|]. exact C.
  - destruct (pick_chunk_p2 0 (N.land (u32 (coalesceable_bytes ss + 3)) (2 ^ 32 - 4)) alignment BK') as [P _].
    split; [apply p2_max; [exact M3|cbn in P |- *; tauto]|]. split; [intros s S; specialize (M2 s S); lia|].
    intros c _ C. specialize (BIG c C). unfold bucket_align. rewrite N.mul_1_l. pose proof (bsize_pos c). rewrite u32_small by lia. lia.
Qed.

Definition the_order : list (N * N) :=
  map (fun c => (c, al c)) (bucket_order llvm al) ++ map (fun c => (4 + c, bsize c)) [0; 1; 2; 3].
Lemma the_order_fst : map fst the_order = bucket_order llvm al ++ [4; 5; 6; 7].
Proof. unfold the_order. rewrite map_app, map_map. cbn [map fst]. rewrite map_id. reflexivity. Qed.
Lemma the_order_perm : Permutation (map fst the_order) [0; 1; 2; 3; 4; 5; 6; 7].
Proof. rewrite the_order_fst. apply (Permutation_app_tail [4; 5; 6; 7] (bucket_order_perm llvm al)). Qed.
Lemma the_order_nodup : NoDup (map fst the_order).
Proof.
  eapply Permutation_NoDup; [apply Permutation_sym, the_order_perm|].
  repeat constructor; cbn; intuition discriminate.
Qed.
Lemma the_order_in : forall x, In x the_order -> fst x < 8 /\ In (snd x) p2 /\ bsize (fst x) <= snd x /\ (fst x < 4 -> snd x = al (fst x)).
Proof.
  intros x X. unfold the_order in X. apply in_app_iff in X. destruct X as [X|X]; apply in_map_iff in X; destruct X as (c & <- & C); cbn [fst snd].
  - assert (In c [0; 1; 2; 3]) as I by (eapply Permutation_in; [apply bucket_order_perm|exact C]).
    destruct (al_ok c). split; [cbn in I; intuition lia|]. auto.
  - assert (c < 4) by (cbn in C; intuition lia). rewrite bsize_add4 by auto. split; [lia|]. split; [apply bsize_p2|]. split; [lia|]. intros; lia.
Qed.
Lemma budget_total : forall order, budget ss order = 64 * N.of_nat (length order) + 8 * total ss (map fst order).
Proof. induction order as [|[b a] o IH]; [reflexivity|]. cbn [budget length map fst total fold_right]. fold (total ss (map fst o)). rewrite IH. lia. Qed.

Definition bucket_at (lo : N) (out : list placed) (l : layout) (c : N) : Prop :=
  if count c ss =? 0 then nth (N.to_nat c) (l_bucket l) (0, 0) = (0, 0)
  else exists k o, nth (N.to_nat c) (l_bucket l) (0, 0) = (lo + k, count c ss) /\ o mod al c = 0 /\ l_offset l <= o /\
    forall r, r < count c ss -> exists ref, nth_error out (N.to_nat (k + r)) = Some (ref, o + r * bsize c, c).

Lemma fill_nth : forall b rs o r, (r < length rs)%nat -> exists ref, nth_error (fill o b rs) r = Some (ref, o + N.of_nat r * bsize b, b).
Proof.
  induction rs; intros o r R; cbn [length] in R; [lia|]. destruct r; cbn [fill nth_error].
  - eexists. replace (o + N.of_nat 0 * bsize b) with o by lia. reflexivity.
  - destruct (IHrs (o + bsize b) r) as [ref E]; [lia|]. exists ref. rewrite E. rewrite Nat2N.inj_succ, N.mul_succ_l.
    rewrite (N.add_comm (_ * _) (bsize b)), N.add_assoc. reflexivity.
Qed.

Lemma placed_at_bounds : forall order po lo hi, placed_at ss order po lo hi -> lo <= hi /\
  forall b a, In (b, a) order -> count b ss <> 0 -> lo <= at_ b po /\ at_ b po + count b ss * bsize b <= hi /\ at_ b po mod a = 0.
Proof.
  induction order as [|[b a] order IH]; intros po lo hi H; cbn [placed_at] in H.
  - split; [lia|]. intros ? ? [].
  - destruct (N.eqb_spec (count b ss) 0) as [Z|Z].
    + destruct (IH _ _ _ H) as [A B]. split; [exact A|]. intros c d [E|I]; [inversion E; subst; lia|]. auto.
    + destruct H as (L & M & R). destruct (IH _ _ _ R) as [A B]. split; [lia|].
      intros c d [E|I] C; [inversion E; subst; split; [lia|]; split; [lia|exact M]|]. destruct (B c d I C) as (X & Y & W). split; [lia|]. auto.
Qed.

Theorem layout_instance_ok : forall lo ds out l hi,
  ds + 8 * N.of_nat (length ss) + 640 < 2 ^ 32 -> lo + N.of_nat (length ss) < 2 ^ 32 ->
  layout_instance llvm alignment cap lo ds ss = (out, l, hi) ->
  instance_ok lo ds ss out l hi /\ hi <= ds + 8 * N.of_nat (length ss) + 576 /\ l_offset l mod ba = 0 /\
  forall c, c < 4 -> bucket_at lo out l c.
Proof.
  intros lo ds out l hi FIT FIT2 E. unfold layout_instance in E.
  destruct ba_ok as (BP & BS & BC). pose proof (p2_pos _ BP) as BPP.
  destruct (align_up_ok ds ba) as (A1 & A2 & A3); [lia|lia|].
  set (base := align_up ds ba) in *. fold the_order in E.
  set (p0 := mkP (repeat 0 8) (repeat 0 8) 0 base (mkLayout lo (N.of_nat (length ss)) base 0 0 (repeat (0, 0) 4))) in E.
  assert (TT : total ss (map fst the_order) = N.of_nat (length ss)) by (rewrite (total_perm _ _ _ the_order_perm); apply total_all; exact BO).
  assert (BT : budget ss the_order = 512 + 8 * N.of_nat (length ss)).
  { rewrite budget_total, TT. unfold the_order. rewrite app_length, !map_length, (Permutation_length (bucket_order_perm llvm al)). cbn [length]. lia. }
  destruct (place_ok ss the_order p0) as [].
  { apply the_order_nodup. } { apply Forall_forall. intros x X. destruct (the_order_in x X) as (Q1 & Q2 & _). auto. }
  { reflexivity. } { reflexivity. } { reflexivity. } { cbn [p0 p_next_offset]. lia. } { cbn [p0 p_next_slot p_layout l_start]. lia. } { cbn. lia. }
  set (p := fold_left (place ss) the_order p0) in *. cbn [p0 p_next_offset p_next_slot p_layout l_start l_offset l_count] in *.
  destruct (placed_at_bounds _ _ _ _ o_placed) as [_ PB].
  assert (OI : forall b, b < 8 -> In b (map fst the_order)).
  { intros b B. eapply Permutation_in; [apply Permutation_sym, the_order_perm|]. cbn. lia. }
  assert (C8 : forall b, count b ss <> 0 -> b < 8).
  { intros c C. destruct (count_in c ss C) as (s & S & <-). unfold buckets_ok in BO. rewrite Forall_forall in BO. auto. }
  assert (CI : forall b, count b ss <> 0 -> base <= at_ b (p_offset p) /\ at_ b (p_offset p) + count b ss * bsize b <= p_next_offset p /\
            (b < 4 -> at_ b (p_offset p) mod al b = 0)).
  { intros b C. specialize (C8 b C). specialize (OI b C8). apply in_map_iff in OI. destruct OI as ([b' a] & EB & I). cbn [fst] in EB. subst b'.
    destruct (PB b a I C) as (X & Y & W). split; [exact X|]. split; [exact Y|]. intros B4. destruct (the_order_in _ I) as (_ & _ & _ & Q). cbn [fst snd] in Q. rewrite <- Q; auto. }
  destruct (scatter_ok ss (map fst the_order) (p_slot p) (p_offset p)) as (bs & bo & SC); auto.
  { apply the_order_nodup. }
  { apply Forall_forall. intros s S. unfold buckets_ok in BO. rewrite Forall_forall in BO. specialize (BO s S). cbn beta in BO. split; auto. }
  { lia. } { intros b C. destruct (CI b C) as (X & Y & _). lia. }
  rewrite SC in E. injection E as <- <- <-.
  split; [constructor|].
  - rewrite forget_flat. apply inb_perm; [apply the_order_nodup|]. apply Forall_forall. intros s S. apply OI.
    unfold buckets_ok in BO. rewrite Forall_forall in BO. auto.
  - rewrite o_offset. apply packed_flat; [|exact o_placed]. apply Forall_forall. intros x X. destruct (the_order_in x X) as (_ & Q2 & Q3 & _). auto.
  - rewrite o_offset. exact A1.
  - exact o_start.
  - exact o_count.
  - split; [lia|]. split; [rewrite o_offset; exact A3|]. intros c C4. unfold bucket_at. destruct (N.eqb_spec (count c ss) 0) as [Z|Z].
    + rewrite o_bucket0; auto; [|apply OI; lia]. cbn [l_bucket p0].
      assert (c = 0 \/ c = 1 \/ c = 2 \/ c = 3) as [-> | [-> | [-> | ->]]] by lia; reflexivity.
    + destruct (CI c Z) as (X & Y & W). exists (at_ c (p_slot p)), (at_ c (p_offset p)). split; [apply o_bucket; auto; apply OI; lia|].
      split; [auto|]. split; [rewrite o_offset; exact X|]. intros r R.
      destruct (in_split c (map fst the_order) (OI c ltac:(lia))) as (o1 & o2 & EO). rewrite EO, flat_map_app. cbn [flat_map].
      rewrite EO in o_slots. rewrite (slots_at_split _ _ _ _ _ _ o_slots Z).
      assert (L1 : N.of_nat (length (flat_map (fun b => fill (at_ b (p_offset p)) b (inb b ss)) o1)) = total ss o1).
      { apply flat_length. intros b _. rewrite fill_length. reflexivity. }
      rewrite nth_error_app2 by lia. pose proof (inb_length c ss) as IL.
      rewrite nth_error_app1 by (rewrite fill_length; lia).
      destruct (fill_nth c (inb c ss) (at_ c (p_offset p)) (N.to_nat (0 + total ss o1 + r) - length (flat_map (fun b => fill (at_ b (p_offset p)) b (inb b ss)) o1))) as [ref F]; [lia|].
      exists ref. rewrite F. f_equal. f_equal. f_equal. f_equal. f_equal. lia.
Qed.
End Inst.
