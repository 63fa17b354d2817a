From Verif Require Import Base Lay_Model Lay_Spec Lay_Proofs Lay_Scatter Lay_Inst Lay_Call.
Local Open Scope N_scope.

(** ** Ascending, non-overlapping entries *)
Fixpoint asc (lo hi : N) (es : list entry) : Prop :=
  match es with
  | [] => lo <= hi
  | e :: r => lo <= fst e /\ asc (fst e + N.of_nat (length (snd e))) hi r
  end.
Lemma asc_weaken : forall es lo lo' hi hi', lo' <= lo -> hi <= hi' -> asc lo hi es -> asc lo' hi' es.
Proof. induction es; cbn; intros; [lia|]. intuition; try lia. eapply IHes; [| |eassumption]; lia. Qed.
Lemma asc_app : forall a b lo mid hi, asc lo mid a -> asc mid hi b -> asc lo hi (a ++ b).
Proof. induction a; cbn [app asc]; intros b lo mid hi A B; [eapply asc_weaken; eauto; lia|]. intuition eauto. Qed.
Lemma asc_le : forall es lo hi, asc lo hi es -> lo <= hi.
Proof. induction es; cbn; intros lo hi H; [lia|]. destruct H as [A B]. apply IHes in B. lia. Qed.
Lemma asc_in : forall es lo hi e, asc lo hi es -> In e es -> lo <= fst e /\ fst e + N.of_nat (length (snd e)) <= hi.
Proof.
  induction es as [|x es IH]; cbn; intros lo hi e H I; [destruct I|]. destruct H as [A B]. destruct I as [<-|I].
  - apply asc_le in B. lia.
  - destruct (IH _ _ _ B I). lia.
Qed.
Lemma asc_pairs : forall es lo hi, asc lo hi es -> ForallOrdPairs (fun a b => disjoint (range_of a) (range_of b)) es.
Proof.
  induction es as [|x es IH]; intros lo hi H; cbn in H; [constructor|]. destruct H as [A B]. constructor; [|eapply IH; eauto].
  apply Forall_forall. intros e E. destruct (asc_in _ _ _ _ B E). left. exact H.
Qed.
Lemma pairs_perm : forall A (R : A -> A -> Prop), (forall a b, R a b -> R b a) ->
  forall l l', Permutation l l' -> ForallOrdPairs R l -> ForallOrdPairs R l'.
Proof.
  intros A R SY l l' P. induction P; intros H; auto.
  - inversion_clear H. constructor; auto. eapply Permutation_Forall; eauto.
  - inversion_clear H as [|? ? F1 F2]. inversion_clear F2 as [|? ? F3 F4]. inversion_clear F1 as [|? ? R1 F5].
    constructor; [constructor; auto|]. constructor; auto.
Qed.
Lemma disjoint_sym : forall a b : entry, disjoint (range_of a) (range_of b) -> disjoint (range_of b) (range_of a).
Proof. intros a b [H|H]; [right|left]; exact H. Qed.

(** ** Memory *)
Lemma write_in : forall m e a, fst e <= a -> a < fst e + N.of_nat (length (snd e)) -> write m e a = nth (N.to_nat (a - fst e)) (snd e) 0.
Proof. intros m e a A B. unfold write. destruct (N.leb_spec (fst e) a); [|lia]. destruct (N.ltb_spec a (fst e + N.of_nat (length (snd e)))); [reflexivity|lia]. Qed.
Lemma write_out : forall m e a, a < fst e \/ fst e + N.of_nat (length (snd e)) <= a -> write m e a = m a.
Proof.
  intros m e a H. unfold write. destruct (N.leb_spec (fst e) a); [|reflexivity].
  destruct (N.ltb_spec a (fst e + N.of_nat (length (snd e)))); [lia|reflexivity].
Qed.
Lemma aggregate_out : forall es m a, (forall e, In e es -> a < fst e \/ fst e + N.of_nat (length (snd e)) <= a) -> aggregate m es a = m a.
Proof.
  induction es as [|e es IH]; intros m a H; [reflexivity|]. cbn. unfold aggregate in IH. rewrite IH by (intros; apply H; right; auto).
  apply write_out. apply H. left; reflexivity.
Qed.
Lemma read_ext : forall n m m' a, (forall k, k < N.of_nat n -> m (a + k) = m' (a + k)) -> read m a n = read m' a n.
Proof.
  induction n; intros m m' a H; cbn [read]; [reflexivity|]. f_equal.
  - specialize (H 0). rewrite N.add_0_r in H. apply H. lia.
  - apply IHn. intros k K. rewrite <- N.add_assoc. apply H. lia.
Qed.
Lemma read_nth : forall bs a m, (forall k, k < N.of_nat (length bs) -> m (a + k) = nth (N.to_nat k) bs 0) -> read m a (length bs) = bs.
Proof.
  induction bs as [|b bs IH]; intros a m H; cbn [length read]; [reflexivity|]. f_equal.
  - specialize (H 0). rewrite N.add_0_r in H. apply H. cbn [length]. lia.
  - apply IH. intros k K. rewrite <- N.add_assoc. rewrite H by (cbn [length]; lia). replace (N.to_nat (1 + k)) with (S (N.to_nat k)) by lia. reflexivity.
Qed.
Lemma aggregate_in : forall es m e, ForallOrdPairs (fun a b => disjoint (range_of a) (range_of b)) es -> In e es ->
  read (aggregate m es) (fst e) (length (snd e)) = snd e.
Proof.
  induction es as [|x es IH]; intros m e D I; [destruct I|]. inversion_clear D as [|? ? F D'].
  change (aggregate m (x :: es)) with (aggregate (write m x) es). destruct I as [->|I].
  - apply read_nth. intros k K. rewrite aggregate_out.
    + rewrite write_in by lia. f_equal. lia.
    + rewrite Forall_forall in F. intros y Y. specialize (F y Y). unfold disjoint, range_of in F. cbn [fst snd] in F. lia.
  - apply IH; auto.
Qed.

(** ** Numbers *)
Lemma le_bytes_length : forall n v, length (le_bytes n v) = n.
Proof. induction n; intros; cbn; auto. Qed.
Lemma number_le : forall n v, v < 256 ^ N.of_nat n -> number (le_bytes n v) = v.
Proof.
  induction n; intros v V; cbn [le_bytes number].
  - change (256 ^ N.of_nat 0) with 1 in V. lia.
  - rewrite Nat2N.inj_succ, N.pow_succ_r' in V. rewrite IHn.
    + pose proof (N.div_mod v 256 ltac:(lia)). lia.
    + apply N.div_lt_upper_bound; lia.
Qed.

(** ** Entries of one item *)
Lemma word_entries_asc : forall ws pos, pos + 8 * N.of_nat (length ws) < 2 ^ 32 -> asc pos (pos + 8 * N.of_nat (length ws)) (word_entries pos ws).
Proof.
  induction ws as [|w ws IH]; intros pos H; cbn [word_entries length] in *; [cbn; lia|].
  cbn [asc fst snd]. rewrite !le_bytes_length. rewrite !u32_small by lia. split; [lia|]. split; [lia|].
  eapply asc_weaken; [| |apply IH; lia]; lia.
Qed.
Lemma word_entries_in : forall ws pos i w, pos + 8 * N.of_nat (length ws) < 2 ^ 32 -> nth_error ws i = Some w ->
  In (pos + 8 * N.of_nat i, le_bytes 4 (u32 w)) (word_entries pos ws) /\
  In (pos + 8 * N.of_nat i + 4, le_bytes 4 (u32 (N.shiftr w 32))) (word_entries pos ws).
Proof.
  induction ws as [|w ws IH]; intros pos i x H E; [destruct i; discriminate|]. cbn [length word_entries] in *.
  destruct i as [|i]; cbn [nth_error] in E.
  - inversion E; subst. replace (pos + 8 * N.of_nat 0) with pos by lia. rewrite (u32_small (pos + 4)) by lia.
    split; [left; reflexivity|right; left; reflexivity].
  - rewrite (u32_small (pos + 8)) by lia. destruct (IH (pos + 8) i x ltac:(lia) E) as [A B].
    replace (pos + 8 * N.of_nat (S i)) with (pos + 8 + 8 * N.of_nat i) by lia. split; right; right; assumption.
Qed.
Lemma table_words_length : forall ds db c ks, length (table_words ds db c ks) = N.to_nat (c_offset_count c).
Proof.
  intros. unfold table_words.
  assert (G : forall l tab, length (fold_left (fun tab (x : N * (layout * N)) => let '(id, (l, callable)) := x in
      set_nth (N.to_nat id) (u64 (N.lor (u64 (N.shiftl (ds + db + l_offset l) 32)) callable)) tab) l tab) = length tab).
  { induction l as [|[id [l0 k]] l IH]; intros tab; cbn [fold_left]; [reflexivity|]. rewrite IH. apply set_nth_length. }
  rewrite G. apply repeat_length.
Qed.
Lemma table_words_nth : forall ds db c ks i id l k,
  nth_error (c_inst_id c) i = Some id -> nth_error (c_layouts c) i = Some l -> nth_error ks i = Some k ->
  NoDup (c_inst_id c) -> Forall (fun j => j < c_offset_count c) (c_inst_id c) ->
  nth_error (table_words ds db c ks) (N.to_nat id) = Some (u64 (N.lor (u64 (N.shiftl (ds + db + l_offset l) 32)) k)).
Proof.
  intros ds db c ks i id l k E1 E2 E3 ND F. unfold table_words.
  set (tab := repeat 0 (N.to_nat (c_offset_count c))).
  assert (TL : (length tab = N.to_nat (c_offset_count c))%nat) by apply repeat_length. clearbody tab.
  revert i tab ks E1 E2 E3 ND F TL. generalize (c_inst_id c) (c_layouts c). clear -c.
  set (f := fun tab (x : N * (layout * N)) => let '(id, (l, callable)) := x in
      set_nth (N.to_nat id) (u64 (N.lor (u64 (N.shiftl (ds + db + l_offset l) 32)) callable)) tab).
  assert (KEEP : forall xs (id : N) tab, ~ In id (map fst xs) -> nth_error (fold_left f xs tab) (N.to_nat id) = nth_error tab (N.to_nat id)).
  { induction xs as [|[j [l0 k0]] xs IH]; intros id' tab NI; [reflexivity|]. cbn [fold_left map fst] in *. rewrite IH by (intros ?; apply NI; right; auto).
    unfold f at 1. apply nth_error_set_nth_neq. intros E. apply NI. left. lia. }
  induction l0 as [|j ids IH]; intros ls i tab ks E1 E2 E3 ND F TL; [destruct i; discriminate|].
  inversion_clear ND as [|? ? NI ND']. inversion_clear F as [|? ? J F'].
  destruct ls as [|l1 ls]; [destruct i; discriminate|]. destruct ks as [|k1 ks]; [destruct i; discriminate|]. cbn [combine fold_left].
  destruct i as [|i]; cbn [nth_error] in E1, E2, E3.
  - inversion E1; inversion E2; inversion E3; subst. rewrite KEEP.
    + unfold f at 1. apply nth_error_set_nth_eq. lia.
    + intros I. apply NI. apply in_map_iff in I. destruct I as ([a b] & E & I). apply in_combine_l in I. cbn in E. subst. exact I.
  - eapply IH; eauto. unfold f. rewrite set_nth_length. exact TL.
Qed.

Lemma slot_entries_asc : forall data db ds out lo hi, packed lo hi out -> db + hi + ds < 2 ^ 32 ->
  Forall (fun s => N.of_nat (length (data (fst s))) = bsize (snd s)) (map forget out) ->
  asc (ds + db + lo) (ds + db + hi) (map (fun s : placed => (u32 (u32 (db + snd (fst s)) + ds), data (fst (fst s)))) out).
Proof.
  induction out as [|[[r o] b] out IH]; intros lo hi P H F; cbn [packed map] in *; [cbn; lia|].
  destruct P as (A & _ & B). pose proof (packed_le _ _ _ B). inversion_clear F as [|? ? L F']. cbn [forget fst snd] in L.
  cbn [asc fst snd]. rewrite !u32_small by (rewrite ?u32_small; lia). split; [lia|]. cbn beta in L. rewrite L.
  eapply asc_weaken; [| |apply (IH (o + bsize b) hi); auto]; lia.
Qed.
Lemma getter_rows_asc : forall t vs pos, pos + t * N.of_nat (length vs) < 2 ^ 32 -> Forall (fun v => N.of_nat (length v) = t) vs ->
  asc pos (pos + t * N.of_nat (length vs)) (getter_rows pos t vs).
Proof.
  induction vs as [|v vs IH]; intros pos H F; cbn [getter_rows length] in *; [cbn; lia|].
  inversion_clear F as [|? ? L F']. rewrite Nat2N.inj_succ, N.mul_succ_r in *. cbn [asc fst snd]. split; [lia|]. rewrite L. rewrite u32_small by lia.
  eapply asc_weaken; [| |apply (IH (pos + t)); auto]; lia.
Qed.
Lemma getter_rows_in : forall t vs pos i v, pos + t * N.of_nat (length vs) < 2 ^ 32 -> nth_error vs i = Some v ->
  In (pos + t * N.of_nat i, v) (getter_rows pos t vs).
Proof.
  induction vs as [|w vs IH]; intros pos i v H E; [destruct i; discriminate|]. cbn [length getter_rows] in *.
  rewrite Nat2N.inj_succ, N.mul_succ_r in H. destruct i as [|i]; cbn [nth_error] in E.
  - inversion E; subst. left. f_equal. lia.
  - right. rewrite u32_small by lia. rewrite Nat2N.inj_succ, N.mul_succ_r. replace (pos + (t * N.of_nat i + t)) with (pos + t + t * N.of_nat i) by lia. apply IH; auto. lia.
Qed.

(** ** All items *)
Section Upload.
Variables (data : N -> list N) (llvm : bool) (alignment cap : N).
Hypothesis BK : backend_ok llvm alignment cap.
Notation item_ok := (item_ok data llvm alignment cap).

Lemma call_facts : forall c ks, item_ok (ICall c ks) ->
  packed 0 (c_data_size c) (c_slots c) /\
  Forall (fun s => N.of_nat (length (data (fst s))) = bsize (snd s)) (map forget (c_slots c)) /\
  Forall (fun j => j < c_offset_count c) (c_inst_id c) /\ c_offset_count c < 2 ^ 32.
Proof.
  intros c ks (insts & inst_id & -> & F & FIT & L1 & L2 & ND & I & K & D).
  destruct (layout_call_ok llvm alignment cap BK insts inst_id F FIT) as (hi & IN & HI & DM).
  split; [eapply packed_hi; [exact HI|eapply instances_packed; eauto]|].
  split; [eapply Permutation_Forall; [apply Permutation_sym; eapply instances_perm; eauto|exact D]|].
  unfold layout_call. destruct (layout_from llvm alignment cap 0 0 insts) as [[? ?] ?]. cbn [c_inst_id c_offset_count].
  split; [|apply u32_lt].
  assert (G : forall l m, (forall x, In x l -> x < 2 ^ 32 - 1) -> m < 2 ^ 32 - 1 -> let m' := fold_left N.max l m in
    m <= m' /\ m' < 2 ^ 32 - 1 /\ forall x, In x l -> x <= m').
  { clear. intros q. induction q as [|a q IH]; intros m H M m'; subst m'; cbn [fold_left]; [split; [apply N.le_refl|]; split; [exact M|]; intros ? []|].
    destruct (IH (N.max m a)) as (A & B & C); [intros; apply H; right; auto|specialize (H a (or_introl eq_refl)); lia|].
    split; [lia|]. split; [exact B|]. intros x [<-|X]; [lia|auto]. }
  rewrite Forall_forall in I. destruct (G inst_id 0 I ltac:(lia)) as (_ & B & C).
  apply Forall_forall. intros x X. specialize (C x X). rewrite u32_small by lia. lia.
Qed.

Lemma align8 : forall x, x + 8 < 2 ^ 32 -> x <= align_up x 8 <= x + 7.
Proof. intros x X. destruct (align_up_ok x 8) as (A & B & _); lia. Qed.

Definition head (ds : N) (x : item * N * N) : list entry := table_entries ds x ++ getter_entries x.

(** Facts about one assembled item: its header and data entries and their extent. *)
Definition at_item (ds : N) (x : item * N * N) (fo' fd' : N) : Prop :=
  let '(it, fo, fd) := x in asc fo fo' (head ds x) /\ asc (ds + fd) (ds + fd') (slot_entries data ds x).

Lemma assemble_ok : forall items fo fd xs f d ds, Forall item_ok items ->
  fo + sum_of header_bytes items < 2 ^ 32 -> ds + fd + sum_of data_bytes items < 2 ^ 32 ->
  assemble items fo fd = (xs, f, d) ->
  fo <= f <= fo + sum_of header_bytes items /\ d = fd + sum_of data_bytes items /\
  asc fo f (flat_map (head ds) xs) /\ asc (ds + fd) (ds + d) (flat_map (slot_entries data ds) xs) /\
  map (fun x => fst (fst x)) xs = items /\
  Forall (fun x => snd (fst x) + header_bytes (fst (fst x)) < 2 ^ 32 /\ ds + snd x + data_bytes (fst (fst x)) < 2 ^ 32) xs.
Proof.
  induction items as [|it items IH]; intros fo fd xs f d ds F H1 H2 E; cbn [assemble] in E.
  - inversion E; subst. cbn. repeat split; auto; lia.
  - inversion_clear F as [|? ? I F']. cbn [sum_of fold_right] in H1, H2. fold (sum_of header_bytes items) in H1. fold (sum_of data_bytes items) in H2.
    destruct it as [c ks|t vs].
    + cbn [header_bytes data_bytes] in H1, H2. rewrite (u32_small (c_offset_count c * 8)) in E by lia. rewrite (u32_small (fo + _)) in E by lia. rewrite (u32_small (fd + _)) in E by lia.
      destruct (assemble items (fo + c_offset_count c * 8) (fd + c_data_size c)) as [[l f'] d'] eqn:E2. inversion E; subst. clear E.
      apply (IH _ _ _ _ _ ds) in E2; [|first [assumption|lia]..]. destruct E2 as (A1 & A2 & A3 & A4 & A5 & A6).
      destruct (call_facts c ks I) as (P & Q & _ & _).
      cbn [sum_of fold_right header_bytes data_bytes]. fold (sum_of header_bytes items) (sum_of data_bytes items).
      split; [lia|]. split; [lia|]. split; [|split; [|split]].
      * cbn [flat_map]. eapply asc_app; [|exact A3]. unfold head. cbn [table_entries getter_entries]. rewrite app_nil_r.
        pose proof (table_words_length ds fd c ks) as TL.
        eapply asc_weaken; [| |apply word_entries_asc]; rewrite ?TL; try lia.
      * cbn [flat_map]. eapply asc_app; [|rewrite N.add_assoc in A4; exact A4]. cbn [slot_entries].
        eapply asc_weaken; [| |apply (slot_entries_asc data fd ds (c_slots c) 0 (c_data_size c)); auto]; lia.
      * cbn [map fst]. f_equal. exact A5.
      * constructor; [cbn [fst snd header_bytes data_bytes]; split; lia|exact A6].
    + cbn [header_bytes data_bytes] in H1, H2. destruct I as [T V].
      assert (TM : t * N.of_nat (length ((repeat 0 (N.to_nat t)) :: vs)) = (N.of_nat (length vs) + 1) * t) by (cbn [length]; lia).
      rewrite (u32_small ((N.of_nat (length vs) + 1) * t)) in E by lia.
      pose proof (align8 ((N.of_nat (length vs) + 1) * t) ltac:(lia)) as AL. set (al := align_up ((N.of_nat (length vs) + 1) * t) 8) in *.
      rewrite u32_small in E by lia.
      destruct (assemble items (fo + al) fd) as [[l f'] d'] eqn:E2. inversion E; subst. clear E.
      apply (IH _ _ _ _ _ ds) in E2; [|first [assumption|lia]..]. destruct E2 as (A1 & A2 & A3 & A4 & A5 & A6).
      cbn [sum_of fold_right header_bytes data_bytes]. fold (sum_of header_bytes items) (sum_of data_bytes items).
      split; [lia|]. split; [lia|]. split; [|split; [|split]].
      * cbn [flat_map]. eapply asc_app; [|exact A3]. unfold head. cbn [table_entries getter_entries app].
        eapply asc_weaken; [| |apply (getter_rows_asc t (repeat 0 (N.to_nat t) :: vs) fo)]; try lia.
        constructor; [rewrite repeat_length; lia|exact V].
      * exact A4.
      * cbn [map fst]. f_equal. exact A5.
      * constructor; [cbn [fst snd header_bytes data_bytes]; split; lia|exact A6].
Qed.

Lemma flat_map_perm : forall A B (f g : A -> list B) l, Permutation (flat_map (fun x => f x ++ g x) l) (flat_map f l ++ flat_map g l).
Proof.
  induction l; cbn; [constructor|]. rewrite IHl. rewrite <- !app_assoc. apply Permutation_app_head.
  rewrite !app_assoc. apply Permutation_app_tail. apply Permutation_app_comm.
Qed.

Theorem upload_ok : forall items es total, kernel_ok data llvm alignment cap items -> upload data alignment items = (es, total) ->
  exists xs f d, assemble items 0 0 = (xs, f, d) /\ total = align_up f alignment + d /\ f <= align_up f alignment /\
    align_up f alignment mod alignment = 0 /\
    Permutation es (flat_map (head (align_up f alignment)) xs ++ flat_map (slot_entries data (align_up f alignment)) xs) /\
    asc 0 total (flat_map (head (align_up f alignment)) xs ++ flat_map (slot_entries data (align_up f alignment)) xs) /\
    map (fun x => fst (fst x)) xs = items /\
    Forall (fun x => snd (fst x) + header_bytes (fst (fst x)) < 2 ^ 32 /\ align_up f alignment + snd x + data_bytes (fst (fst x)) < 2 ^ 32) xs.
Proof.
  intros items es total (_ & F & FIT) E. unfold upload in E. destruct (assemble items 0 0) as [[xs f] d] eqn:A.
  destruct (alignment_ok llvm alignment cap BK) as [AP A8]. pose proof (p2_pos _ AP).
  pose proof A as A'. apply (assemble_ok _ _ _ _ _ _ 0) in A'; [|first [assumption|lia]..]. destruct A' as (B1 & B2 & _).
  destruct (align_up_ok f alignment) as (C1 & C2 & C3); [lia|lia|].
  pose proof A as A'. apply (assemble_ok _ _ _ _ _ _ (align_up f alignment)) in A'; [|first [assumption|lia]..]. destruct A' as (_ & _ & B3 & B4 & B5 & B6).
  exists xs, f, d. rewrite u32_small in E by lia. injection E as <- <-. split; [reflexivity|]. split; [reflexivity|]. split; [exact C1|]. split; [exact C3|].
  split; [|split; [|split; auto]].
  - unfold head. rewrite flat_map_perm. rewrite <- !app_assoc. apply Permutation_app_head. apply Permutation_app_comm.
  - eapply asc_app; [exact B3|]. eapply asc_weaken; [| |exact B4]; lia.
Qed.
End Upload.
