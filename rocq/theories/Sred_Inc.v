(** scatter_inc hands out every number exactly once. *)
From Verif Require Import Base Bits Sred_Model Sred_Spec Sred_Proofs.
Local Open Scope N_scope.

Lemma iota_app : forall a b f, iota f (a + b) = iota f a ++ iota (f + N.of_nat a) b.
Proof. induction a as [|a IH]; intros b f; cbn [iota Nat.add app]; [now rewrite N.add_0_r|]. rewrite IH. do 2 f_equal. f_equal. lia. Qed.
Lemma iota_map : forall c f x, map (fun r => x + r) (iota f c) = iota (x + f) c.
Proof. induction c as [|c IH]; intros f x; cbn [iota map]; [reflexivity|]. rewrite IH. do 2 f_equal. lia. Qed.
Lemma iota_length c : forall f, length (iota f c) = c.
Proof. induction c as [|c IH]; intros f; cbn [iota length]; [reflexivity|]. now rewrite IH. Qed.

(** ** Lowest set bit *)
Lemma cttz_bit x : x <> 0 -> N.testbit x (cttz x) = true /\ forall k, k < cttz x -> N.testbit x k = false.
Proof.
  destruct x as [|p]; [congruence|]. intros _. cbn [cttz]. induction p as [p IH|p IH|]; cbn [cttz_pos].
  - split; [reflexivity|lia].
  - destruct IH as [I1 I2]. change (N.pos p~0) with (2 * N.pos p). split.
    + replace (1 + cttz_pos p) with (N.succ (cttz_pos p)) by lia. now rewrite N.double_bits_succ.
    + intros k Bk. destruct (N.eq_dec k 0) as [->|Ne]; [apply N.testbit_even_0|]. replace k with (N.succ (k - 1)) by lia. rewrite N.double_bits_succ. apply I2. lia.
  - split; [reflexivity|lia].
Qed.
Lemma lanes_split w i : i < w -> exists l r, lane_list w = l ++ i :: r /\ (forall k, In k l -> k < i) /\ (forall k, In k r -> i < k).
Proof.
  intros B. exists (map N.of_nat (seq 0 (N.to_nat i))), (map N.of_nat (seq (S (N.to_nat i)) (N.to_nat (w - i - 1)))). unfold lane_list.
  replace (N.to_nat w) with (N.to_nat i + S (N.to_nat (w - i - 1)))%nat by lia. rewrite seq_app, map_app. cbn [Nat.add seq map]. rewrite N2Nat.id. split; [reflexivity|].
  split; intros k H; apply in_map_iff in H as (x & <- & H); apply in_seq in H; lia.
Qed.
Lemma filter_none {A} (f : A -> bool) l : (forall k, In k l -> f k = false) -> filter f l = [].
Proof. induction l as [|x l IH]; intros H; [reflexivity|]. cbn [filter]. rewrite H by now left. apply IH. intros; apply H; now right. Qed.
Lemma pop_lowest w A : (forall k, N.testbit A k = true -> k < w) -> A <> 0 ->
  let i := cttz A in let A' := N.lxor A (N.shiftl 1 i) in
  i < w /\ N.testbit A i = true /\ (forall k, N.testbit A' k = N.testbit A k && negb (k =? i)) /\
  filter (N.testbit A) (lane_list w) = i :: filter (N.testbit A') (lane_list w).
Proof.
  intros Bw NA i A'. destruct (cttz_bit A NA) as [H1 H2]. fold i in H1, H2. pose proof (Bw i H1) as Bi.
  assert (HA' : forall k, N.testbit A' k = N.testbit A k && negb (k =? i)).
  { intros k. unfold A'. rewrite N.lxor_spec, N.shiftl_1_l. destruct (N.eqb_spec k i) as [->|Ne].
    - rewrite N.pow2_bits_true, H1. reflexivity.
    - rewrite N.pow2_bits_false by congruence. cbn [negb]. rewrite Bool.andb_true_r. apply Bool.xorb_false_r. }
  repeat split; auto. destruct (lanes_split w i Bi) as (l & r & -> & Hl & Hr). rewrite !filter_app. cbn [filter]. rewrite H1, HA', N.eqb_refl, Bool.andb_false_r.
  rewrite (filter_none (N.testbit A) l), (filter_none (N.testbit A') l); [|intros k Hk; rewrite HA', H2 by auto; reflexivity|intros k Hk; apply H2; auto].
  cbn [app]. f_equal. apply filter_ext_in. intros k Hk. apply Hr in Hk. rewrite HA'. destruct (N.eqb_spec k i); [lia|]. now rewrite Bool.andb_true_r.
Qed.

Lemma ranks_ok w : forall fuel A acc out, (forall k, N.testbit A k = true -> k < w) -> A <> 0 -> (length (filter (N.testbit A) (lane_list w)) <= fuel)%nat ->
  exists out', ranks fuel A acc out = Some (acc + N.of_nat (length (filter (N.testbit A) (lane_list w))), out') /\
    map out' (filter (N.testbit A) (lane_list w)) = iota acc (length (filter (N.testbit A) (lane_list w))) /\
    forall k, N.testbit A k = false -> out' k = out k.
Proof.
  induction fuel as [|fuel IH]; intros A acc out Bw NA Bf; destruct (pop_lowest w A Bw NA) as (Bi & Hi & HA' & Pop); cbn zeta in *; [rewrite Pop in Bf; cbn [length] in Bf; lia|].
  cbn [ranks]. set (i := cttz A) in *. set (A' := N.lxor A (N.shiftl 1 i)) in *. set (o1 := fun k => if k =? i then acc else out k).
  rewrite Pop in *. cbn [length map] in *. destruct (N.eqb_spec A' 0) as [Z|Nz].
  - assert (Em : filter (N.testbit A') (lane_list w) = []) by (apply filter_none; intros k _; rewrite Z; apply N.bits_0). rewrite Em. exists o1. split; [reflexivity|].
    cbn [map iota]. unfold o1. rewrite N.eqb_refl. split; [reflexivity|]. intros k Hk. destruct (N.eqb_spec k i); [congruence|reflexivity].
  - destruct (IH A' (acc + 1) o1) as (out' & -> & Hm & Ho); [|assumption|lia|].
    { intros k Hk. rewrite HA' in Hk. apply Bool.andb_true_iff in Hk as [Hk _]. now apply Bw. }
    exists out'. split; [do 2 f_equal; lia|]. split.
    + cbn [iota]. rewrite Hm. f_equal. rewrite Ho; [unfold o1; now rewrite N.eqb_refl|]. rewrite HA', N.eqb_refl. apply Bool.andb_false_r.
    + intros k Hk. rewrite Ho by (rewrite HA', Hk; reflexivity). unfold o1. destruct (N.eqb_spec k i); [congruence|reflexivity].
Qed.

(** ** Groups of lanes *)
Lemma umax_spec l : (umax l = 0 /\ (forall x, In x l -> x = 0)) \/ (umax l <> 0 /\ In (umax l) l).
Proof.
  unfold umax. assert (G : forall l a, a <= fold_left N.max l a /\ (forall x, In x l -> x <= fold_left N.max l a) /\ (fold_left N.max l a = a \/ In (fold_left N.max l a) l)).
  { clear. induction l as [|y l IH]; intros a; cbn [fold_left]; [repeat split; auto; [lia|intros ? []]|]. destruct (IH (N.max a y)) as (I1 & I2 & I3). split; [lia|]. split.
    - intros x [->|Hx]; [lia|now apply I2].
    - destruct I3 as [I3|I3]; [|right; now right]. rewrite I3. destruct (N.max_spec a y) as [[_ ->]|[_ ->]]; [right; now left|now left]. }
  destruct (G l 0) as (_ & G2 & G3). destruct (N.eq_dec (fold_left N.max l 0) 0) as [Z|Nz]; [left; split; [assumption|]|right; split; [assumption|]].
  - intros x Hx. specialize (G2 x Hx). lia.
  - destruct G3 as [G3|G3]; [congruence|assumption].
Qed.
Definition group (w : N) (ptrs : N -> N) (a : N) : list N := filter (fun k => ptrs k =? a) (lane_list w).
Lemma group_bits w (f : N -> bool) : filter (N.testbit (bits w f)) (lane_list w) = filter f (lane_list w).
Proof. apply filter_ext_in. intros k Hk. apply in_lanes in Hk. rewrite bits_spec. apply N.ltb_lt in Hk. now rewrite Hk. Qed.
Lemma filter_le {A} (f : A -> bool) l : (length (filter f l) <= length l)%nat.
Proof. induction l as [|x l IH]; cbn [filter length]; [lia|]. destruct (f x); cbn [length]; lia. Qed.
Lemma lane_length w : length (lane_list w) = N.to_nat w.
Proof. unfold lane_list. now rewrite map_length, seq_length. Qed.

Definition assigned (w : N) (ptrs : N -> N) (ops : list (N * N)) (out : N -> option (N * nat)) (i : nat) (a : N) : Prop :=
  (group w ptrs a = [] /\ forall u, In u ops -> fst u <> a) \/
  (exists l r, ops = l ++ (a, N.of_nat (length (group w ptrs a))) :: r /\ (forall u, In u l -> fst u <> a) /\ (forall u, In u r -> fst u <> a) /\ group w ptrs a <> [] /\
     map out (group w ptrs a) = map (fun x => Some (x, (i + length l)%nat)) (iota 0 (length (group w ptrs a)))).
Lemma inc_loop_ok w : forall fuel ptrs out i, (length (filter (fun k => negb (ptrs k =? 0)%N) (lane_list w)) < fuel)%nat ->
  exists ops out', inc_loop w fuel ptrs out i = Some (ops, out') /\ (forall a, a <> 0 -> assigned w ptrs ops out' i a) /\
    (forall u, In u ops -> fst u <> 0) /\ forall k, k < w -> ptrs k = 0 -> out' k = out k.
Proof.
  induction fuel as [|fuel IH]; intros ptrs out i Bf; [lia|]. cbn [inc_loop]. set (p := umax (map ptrs (lane_list w))).
  destruct (umax_spec (map ptrs (lane_list w))) as [[Z Hz]|[Nz Hp]]; [fold p in Z|fold p in Nz, Hp].
  { rewrite Z. exists [], out. split; [reflexivity|]. split; [|split; [intros ? []|reflexivity]]. intros a Na. left. split; [|intros ? []]. apply filter_none. intros k Hk.
    apply N.eqb_neq. rewrite (Hz (ptrs k)); [congruence|]. now apply in_map. }
  apply N.eqb_neq in Nz as Nz'. rewrite Nz'. apply in_map_iff in Hp as (k0 & Hk0 & Lk0).
  set (f := fun k => p =? ptrs k). assert (Gf : filter f (lane_list w) = group w ptrs p) by (apply filter_ext_in; intros k _; apply N.eqb_sym).
  assert (Ng : group w ptrs p <> []). { intros H. assert (I : In k0 (group w ptrs p)) by (apply filter_In; split; [assumption|rewrite Hk0; apply N.eqb_refl]). rewrite H in I. destruct I. }
  destruct (ranks_ok w (N.to_nat w) (bits w f) 0 (fun _ => 0)) as (rank & Er & Hr & _).
  { intros k Hk. rewrite bits_spec in Hk. apply Bool.andb_true_iff in Hk as [Hk _]. now apply N.ltb_lt. }
  { intros H. apply Ng. rewrite <- Gf, <- group_bits, H. apply filter_none. intros; apply N.bits_0. }
  { eapply Nat.le_trans; [apply filter_le|]. rewrite lane_length. lia. }
  rewrite Er. rewrite group_bits, Gf in *. cbn [bind]. set (c := length (group w ptrs p)) in *. rewrite N.add_0_l.
  set (o1 := fun k => if f k then Some (rank k, i) else out k). set (p1 := fun k => if f k then 0 else ptrs k).
  assert (Hf : forall k, f k = true <-> ptrs k = p) by (intros k; unfold f; rewrite N.eqb_eq; split; congruence).
  destruct (IH p1 o1 (S i)) as (ops & out' & Ei & Ha & Hn & Ho).
  { apply in_lanes in Lk0 as Bk0. destruct (lanes_split w k0 Bk0) as (l & r & Hl & _). rewrite Hl in *. rewrite !filter_app, !app_length in *. cbn [filter] in *.
    assert (M : forall l, (length (filter (fun k => negb (p1 k =? 0)%N) l) <= length (filter (fun k => negb (ptrs k =? 0)%N) l))%nat).
    { intros q. induction q as [|k q IHq]; [cbn; lia|]. cbn [filter]. assert (D : p1 k = 0 \/ p1 k = ptrs k) by (unfold p1; destruct (f k); auto).
      destruct D as [-> | ->]; [change (0 =? 0)%N with true; cbn [negb]; destruct (negb (ptrs k =? 0)%N); cbn [length]; lia|]. destruct (negb (ptrs k =? 0)%N); cbn [length]; lia. }
    assert (Hf0 : f k0 = true) by now apply Hf. replace (p1 k0) with 0 by (unfold p1; now rewrite Hf0). rewrite Hk0, Nz' in Bf. cbn [negb N.eqb length] in *.
    pose proof (M l). pose proof (M r). change (0 =? 0) with true. cbn [negb]. lia. }
  exists ((p, N.of_nat c) :: ops), out'. split; [change (bind (inc_loop w fuel p1 o1 (S i)) (fun r => Some ((p, N.of_nat c) :: fst r, snd r)) = Some ((p, N.of_nat c) :: ops, out')); rewrite Ei; reflexivity|].
  assert (Other : forall a, a <> 0 -> a <> p -> group w p1 a = group w ptrs a).
  { intros a Na Np. apply filter_ext_in. intros k _. unfold p1. destruct (f k) eqn:E; [|reflexivity]. apply Hf in E. rewrite E. destruct (N.eqb_spec 0 a), (N.eqb_spec p a); congruence. }
  assert (This : group w p1 p = []).
  { apply filter_none. intros k _. unfold p1. destruct (f k) eqn:E; apply N.eqb_neq; [congruence|]. intros H. apply Hf in H. congruence. }
  split; [|split].
  - intros a Na. destruct (N.eq_dec a p) as [->|Np].
    + right. destruct (Ha p Na) as [[_ Hops]|(l & r & _ & _ & _ & G' & _)]; [|congruence].
      exists [], ops. split; [reflexivity|]. split; [intros ? []|]. split; [exact Hops|]. split; [assumption|]. fold c. rewrite <- Hr. rewrite map_map.
      apply map_ext_in. intros k Hk. apply filter_In in Hk as [Lk Hk]. apply N.eqb_eq in Hk. apply in_lanes in Lk as Bk. apply Hf in Hk as Fk.
      rewrite Ho by (assumption || (unfold p1; now rewrite Fk)). unfold o1. rewrite Fk. cbn [length]. now rewrite Nat.add_0_r.
    + destruct (Ha a Na) as [[G0 Hops]|(l & r & Eq & H1 & H2 & H3 & H4)]; rewrite (Other a Na Np) in *.
      * left. split; [assumption|]. intros u [<-|Hu]; [cbn; congruence|now apply Hops].
      * right. exists ((p, N.of_nat c) :: l), r. split; [rewrite Eq; reflexivity|]. split; [intros u [<-|Hu]; [cbn; congruence|now apply H1]|]. split; [assumption|]. split; [assumption|].
        rewrite H4. cbn [length]. apply map_ext. intros x. do 2 f_equal. lia.
  - intros u [<-|Hu]; [exact Nz|now apply Hn].
  - intros k Bk Hk. assert (Fk : f k = false). { destruct (f k) eqn:E; [|reflexivity]. apply Hf in E. congruence. }
    rewrite Ho by (assumption || (unfold p1; rewrite Fk; assumption)). unfold o1. now rewrite Fk.
Qed.

(** ** Results of a vector *)
Definition slots (d : N * N * N) : list N := map u32 (iota (snd d) (N.to_nat (snd (fst d)))).
Definition at_slot (a : N) (done : list (N * N * N)) : list N := flat_map slots (filter (fun d => fst (fst d) =? a) done).
Definition matches (ops : list (N * N)) (done : list (N * N * N)) : Prop := map fst done = ops.
Lemma at_slot_app a d d' : at_slot a (d ++ d') = at_slot a d ++ at_slot a d'.
Proof. unfold at_slot. now rewrite filter_app, flat_map_app. Qed.
Lemma at_slot_none a ops done : matches ops done -> (forall u, In u ops -> fst u <> a) -> at_slot a done = [].
Proof.
  intros M H. unfold at_slot. rewrite filter_none; [reflexivity|]. intros d Hd. apply N.eqb_neq. apply H. rewrite <- M. now apply in_map.
Qed.
Lemma cprog1_ok w b : exists ops assign, cprog1 w b = Some (ops, assign) /\
  forall a done rest, a <> 0 -> matches ops done -> map (lane_result assign (done ++ rest)) (lanes_of w b a) = at_slot a done.
Proof.
  unfold cprog1, inc. set (ptrs := fun k => if N.testbit (c_active b) k then c_ptr b k else 0).
  destruct (inc_loop_ok w (S (N.to_nat w)) ptrs (fun _ => None) 0) as (ops & assign & E & Ha & _ & _).
  { pose proof (filter_le (fun k => negb (ptrs k =? 0)) (lane_list w)) as L. rewrite lane_length in L. lia. }
  exists ops, assign. split; [exact E|]. intros a done rest Na M.
  assert (Lg : lanes_of w b a = group w ptrs a).
  { apply filter_ext_in. intros k _. unfold ptrs. destruct (N.testbit (c_active b) k); cbn [andb]; [reflexivity|]. symmetry. apply N.eqb_neq. congruence. }
  rewrite Lg. destruct (Ha a Na) as [[G0 Hops]|(l & r & Eq & H1 & H2 & _ & H4)].
  - rewrite G0. cbn [map]. symmetry. eapply at_slot_none; eassumption.
  - set (g := group w ptrs a) in *. assert (Res : forall h f z, map assign h = map f (iota z (length h)) -> map (lane_result assign (done ++ rest)) h = map (fun x => match f x with None => 0 | Some (rank, i) => match nth_error (done ++ rest) i with Some (_, _, prev) => u32 (prev + rank) | None => 0 end end) (iota z (length h))).
    { intros h f. induction h as [|k h IH]; intros z; cbn [length iota map]; [reflexivity|]. intros H. injection H as Hk Hh. f_equal; [unfold lane_result; rewrite Hk; reflexivity|now apply IH]. }
    rewrite (Res g _ _ H4). rewrite Eq in M. unfold matches in M.
    assert (Sp : exists dl prev dr, done = dl ++ (a, N.of_nat (length g), prev) :: dr /\ map fst dl = l /\ map fst dr = r).
    { clear -M. revert l M. induction done as [|d done IH]; intros l M; cbn [map] in M; [destruct l; discriminate|]. destruct l as [|u l]; cbn [app] in M.
      - injection M as M1 M2. destruct d as [x prev]. cbn [fst] in M1. subst x. exists [], prev, done. repeat split; auto.
      - injection M as M1 M2. destruct (IH l M2) as (dl & prev & dr & -> & <- & <-). exists (d :: dl), prev, dr. repeat split. cbn [map]. now rewrite M1. }
    destruct Sp as (dl & prev & dr & -> & Ml & Mr). rewrite <- Ml, map_length. rewrite at_slot_app.
    assert (Z1 : at_slot a dl = []) by (eapply at_slot_none; [exact Ml|assumption]).
    unfold at_slot at 2. cbn [filter fst]. rewrite N.eqb_refl. cbn [flat_map]. fold (at_slot a dr).
    assert (Z2 : at_slot a dr = []) by (eapply at_slot_none; [exact Mr|assumption]). rewrite Z1, Z2, app_nil_r. cbn [app]. unfold slots. cbn [fst snd]. rewrite Nat2N.id.
    replace (iota prev (length g)) with (map (fun r => prev + r) (iota 0 (length g))) by (rewrite iota_map; now rewrite N.add_0_r). rewrite map_map. apply map_ext. intros x. rewrite <- app_assoc. cbn [Nat.add]. rewrite nth_error_app2 by lia. rewrite Nat.sub_diag. reflexivity.
Qed.
Lemma results_ok w a : a <> 0 -> forall bs ops done, cprog w bs = Some ops -> matches ops done -> results w bs done a = Some (at_slot a done).
Proof.
  intros Na. induction bs as [|b bs IH]; intros ops done E M; cbn [cprog results] in *.
  { injection E as <-. unfold matches in M. apply map_eq_nil in M. subst. reflexivity. }
  destruct (cprog1_ok w b) as (o1 & assign & E1 & H1). rewrite E1 in *. cbn [bind fst snd] in *. destruct (cprog w bs) as [o2|]; [|discriminate]. cbn [bind] in E. injection E as <-.
  unfold matches in M. assert (Sp : exists d1 d2, done = d1 ++ d2 /\ map fst d1 = o1 /\ map fst d2 = o2).
  { exists (firstn (length o1) done), (skipn (length o1) done). split; [symmetry; apply firstn_skipn|]. rewrite <- firstn_map, <- skipn_map, M. rewrite firstn_app, skipn_app, Nat.sub_diag, firstn_all, skipn_all. cbn [firstn skipn]. rewrite app_nil_r. split; reflexivity. }
  destruct Sp as (d1 & d2 & -> & M1 & M2). rewrite <- M1, map_length. rewrite skipn_app, Nat.sub_diag, skipn_all. cbn [skipn app]. rewrite (IH o2 d2 eq_refl M2). cbn [bind].
  rewrite at_slot_app. f_equal. f_equal. apply (H1 a d1 d2 Na M1).
Qed.
Lemma cprog_some w bs : exists ops, cprog w bs = Some ops.
Proof.
  induction bs as [|b bs [ops IH]]; cbn [cprog]; [eauto|]. destruct (cprog1_ok w b) as (o1 & assign & -> & _). cbn [bind]. rewrite IH. cbn [bind]. eauto.
Qed.

(** ** Interleavings *)
Definition all_done (ts : list cthread) : list (N * N * N) := flat_map ct_done ts.
Lemma all_done_set : forall ts i t d x, nth_error ts i = Some t -> ct_done d = ct_done t ++ [x] -> Permutation (all_done (set_nth i d ts)) (all_done ts ++ [x]).
Proof.
  induction ts as [|y ts IH]; intros i t d x H E; destruct i as [|i]; try discriminate; cbn [set_nth all_done flat_map].
  - injection H as ->. rewrite E, <- !app_assoc. apply Permutation_app_head. apply Permutation_app_comm.
  - fold (all_done ts). fold (all_done (set_nth i d ts)). rewrite <- app_assoc. apply Permutation_app_head. eapply IH; eassumption.
Qed.
Lemma at_slot_perm a d d' : Permutation d d' -> Permutation (at_slot a d) (at_slot a d').
Proof.
  intros P. unfold at_slot. apply Permutation_flat_map. induction P as [|x l l' P IH|x y l|l1 l2 l3 P1 IH1 P2 IH2]; cbn [filter]; auto.
  - destruct (_ =? a); auto.
  - destruct (fst (fst x) =? a), (fst (fst y) =? a); auto using perm_swap.
  - eauto using Permutation_trans.
Qed.
Record cinv (m0 : N -> N) (todos : list (list (N * N))) (ts : list cthread) (m : N -> N) : Prop := {
  ci_len : length ts = length todos;
  ci_ops : forall i t, nth_error ts i = Some t -> nth_error todos i = Some (map fst (ct_done t) ++ ct_todo t);
  ci_mem : forall a, exists n, m a = u32 (m0 a + N.of_nat n) /\ Permutation (at_slot a (all_done ts)) (map u32 (iota (m0 a) n)) /\ (n = length (at_slot a (all_done ts)))%nat
}.
Lemma u32_add x y : u32 (u32 x + y) = u32 (x + y).
Proof. unfold u32. apply N.add_mod_idemp_l. discriminate. Qed.
Lemma iota_u32 c : forall x, map u32 (iota (u32 x) c) = map u32 (iota x c).
Proof.
  induction c as [|c IH]; intros x; cbn [iota map]; [reflexivity|]. f_equal; [unfold u32; apply N.mod_mod; discriminate|]. rewrite <- IH, u32_add, IH. reflexivity.
Qed.
Lemma cstep_ok m0 todos ts m i t : cinv m0 todos ts m -> nth_error ts i = Some t -> forall t' m', cstep t m = (t', m') -> cinv m0 todos (set_nth i t' ts) m'.
Proof.
  intros I Ht t' m' St. unfold cstep in St. destruct (ct_todo t) as [|[a c] rest] eqn:Td.
  { injection St as <- <-. replace (set_nth i t ts) with ts; [exact I|]. revert Ht. clear. revert ts. induction i as [|i IH]; intros [|x ts] H; try discriminate; cbn [set_nth]; [now injection H as ->|]. f_equal. now apply IH. }
  injection St as <- <-. constructor.
  - rewrite set_nth_length. apply I.
  - intros j tj Hj. destruct (Nat.eq_dec i j) as [<-|Ne].
    + assert (L : (i < length ts)%nat) by (apply nth_error_Some; congruence). rewrite nth_error_set_nth_eq in Hj by assumption. injection Hj as <-. cbn [ct_done ct_todo].
      rewrite (ci_ops _ _ _ _ I i t Ht), Td, map_app, <- app_assoc. reflexivity.
    + rewrite nth_error_set_nth_neq in Hj by assumption. exact (ci_ops _ _ _ _ I j tj Hj).
  - intros b. destruct (ci_mem _ _ _ _ I b) as (n & Hm & Hp & Hn).
    set (t1 := {| ct_todo := rest; ct_done := ct_done t ++ [(a, c, m a)] |}).
    pose proof (all_done_set ts i t t1 (a, c, m a) Ht eq_refl) as Pd. apply (at_slot_perm b) in Pd. rewrite at_slot_app in Pd. unfold at_slot in Pd at 3. cbn [filter fst] in Pd.
    rewrite (N.eqb_sym b a). destruct (N.eqb_spec a b) as [->|Ne].
    + cbn [flat_map] in Pd. rewrite app_nil_r in Pd. unfold slots in Pd. cbn [fst snd] in Pd. exists (n + N.to_nat c)%nat. split; [|split].
      * rewrite Hm, u32_add. f_equal. lia.
      * rewrite iota_app, map_app. rewrite Pd. rewrite Hm, iota_u32. now apply Permutation_app_tail.
      * rewrite (Permutation_length Pd), app_length, map_length, iota_length. congruence.
    + cbn [flat_map] in Pd. rewrite app_nil_r in Pd. exists n. split; [exact Hm|]. split; [now rewrite Pd|]. now rewrite (Permutation_length Pd).
Qed.
Lemma crun_ok m0 todos : forall sched ts m ts' m', cinv m0 todos ts m -> crun sched ts m = (ts', m') -> cinv m0 todos ts' m'.
Proof.
  induction sched as [|i sched IH]; intros ts m ts' m' I R; cbn [crun] in R; [injection R as <- <-; exact I|].
  destruct (nth_error ts i) as [t|] eqn:Ht; [|now apply (IH _ _ _ _ I)]. destruct (cstep t m) as [t1 m1] eqn:St. eapply IH; [|exact R]. eapply cstep_ok; eassumption.
Qed.

Lemma cprogs_some w work : exists todos, cprogs w work = Some todos.
Proof. induction work as [|bs work [todos IH]]; cbn [cprogs]; [eauto|]. destruct (cprog_some w bs) as [ops ->]. cbn [bind]. rewrite IH. cbn [bind]. eauto. Qed.
Lemma all_results_ok w a : a <> 0 -> forall work todos ts, cprogs w work = Some todos -> length ts = length todos ->
  (forall i t, nth_error ts i = Some t -> nth_error todos i = Some (map fst (ct_done t))) -> all_results w work ts a = Some (at_slot a (all_done ts)).
Proof.
  intros Na. induction work as [|bs work IH]; intros todos ts E L H; cbn [cprogs all_results] in *.
  { injection E as <-. destruct ts; [reflexivity|discriminate]. }
  destruct (cprog w bs) as [ops|] eqn:Eo; [|discriminate]. cbn [bind] in E. destruct (cprogs w work) as [r|]; [|discriminate]. cbn [bind] in E. injection E as <-.
  destruct ts as [|t ts]; [discriminate|]. assert (H0 := H 0%nat t eq_refl). cbn in H0. injection H0 as H0.
  rewrite (results_ok w a Na bs ops (ct_done t) Eo (eq_sym H0)). cbn [bind]. rewrite (IH r ts eq_refl ltac:(cbn in L; lia) (fun i => H (S i))). cbn [bind all_done flat_map].
  now rewrite at_slot_app.
Qed.
Lemma results_length w a : forall bs done r, results w bs done a = Some r -> length r = length (flat_map (fun b => lanes_of w b a) bs).
Proof.
  induction bs as [|b bs IH]; intros done r E; cbn [results flat_map] in *; [now injection E as <-|]. destruct (cprog1 w b) as [r1|]; [|discriminate]. cbn [bind] in E.
  destruct (results w bs _ a) as [rest|] eqn:Er; [|discriminate]. cbn [bind] in E. injection E as <-. rewrite !app_length, map_length, (IH _ _ Er). reflexivity.
Qed.
Lemma all_results_length w a : forall work ts r, length ts = length work -> all_results w work ts a = Some r -> length r = requests w work a.
Proof.
  unfold requests. induction work as [|bs work IH]; intros ts r L E; destruct ts as [|t ts]; cbn [all_results flat_map length] in *; try (now injection E as <-); try discriminate.
  destruct (results w bs (ct_done t) a) as [r1|] eqn:E1; [|discriminate]. cbn [bind] in E. destruct (all_results w work ts a) as [r2|] eqn:E2; [|discriminate]. cbn [bind] in E. injection E as <-.
  rewrite !app_length, (results_length w a bs _ _ E1), (IH ts r2 ltac:(lia) E2). reflexivity.
Qed.
Theorem inc_ok w work todos sched m ts' m' : cprogs w work = Some todos -> crun sched (map cstart todos) m = (ts', m') -> (forall t, In t ts' -> ct_todo t = []) ->
  (forall a, m a < 2 ^ 32) -> forall a, a <> 0 ->
  exists r, all_results w work ts' a = Some r /\ Permutation r (map u32 (iota (m a) (requests w work a))) /\ m' a = u32 (m a + N.of_nat (requests w work a)).
Proof.
  intros E R F Bm a Na.
  assert (I0 : cinv m todos (map cstart todos) m).
  { constructor.
    - apply map_length.
    - intros i t Hi. rewrite nth_error_map in Hi. destruct (nth_error todos i) as [x|]; [|discriminate]. injection Hi as <-. reflexivity.
    - intros b. exists 0%nat. assert (Z : all_done (map cstart todos) = []) by (clear; induction todos; [reflexivity|assumption]). rewrite Z. cbn. rewrite N.add_0_r. split; [|split; [constructor|reflexivity]].
      symmetry. apply N.mod_small, Bm. }
  pose proof (crun_ok m todos sched _ _ _ _ I0 R) as I. exists (at_slot a (all_done ts')).
  assert (Er : all_results w work ts' a = Some (at_slot a (all_done ts'))).
  { apply (all_results_ok w a Na work todos ts' E (ci_len _ _ _ _ I)). intros i t Hi. rewrite (ci_ops _ _ _ _ I i t Hi), (F t) by (eapply nth_error_In; exact Hi). now rewrite app_nil_r. }
  assert (Lw : length todos = length work).
  { clear -E. revert todos E. induction work as [|bs work IH]; intros todos E; cbn [cprogs] in E; [now injection E as <-|]. destruct (cprog w bs); [|discriminate]. cbn [bind] in E. destruct (cprogs w work) as [r|]; [|discriminate]. cbn [bind] in E. injection E as <-. cbn [length]. now rewrite (IH r eq_refl). }
  pose proof (all_results_length w a work ts' _ ltac:(rewrite (ci_len _ _ _ _ I); exact Lw) Er) as Lr.
  split; [exact Er|]. destruct (ci_mem _ _ _ _ I a) as (n & Hm & Hp & Hn). rewrite Lr in Hn. subst n. split; assumption.
Qed.
(** ** Consequences *)
Lemma iota_in c : forall f x, In x (iota f c) -> f <= x < f + N.of_nat c.
Proof. induction c as [|c IH]; intros f x H; [destruct H|]. destruct H as [->|H]; [lia|]. apply IH in H. lia. Qed.
Lemma iota_u32_nodup c : forall f, N.of_nat c <= 2 ^ 32 -> NoDup (map u32 (iota f c)).
Proof.
  induction c as [|c IH]; intros f B; cbn [iota map]; constructor; [|apply IH; lia]. intros H. apply in_map_iff in H as (x & E & Hx). apply iota_in in Hx.
  unfold u32 in E. change (2 ^ 32) with 4294967296 in *. assert (D : x = f + (x - f)) by lia. set (d := x - f) in *.
  assert (Bd : 0 < d < 4294967296) by lia. rewrite D in E. clear -E Bd. pose proof (N.div_mod f 4294967296 ltac:(discriminate)). pose proof (N.div_mod (f + d) 4294967296 ltac:(discriminate)).
  rewrite E in *. set (q := f / 4294967296) in *. set (q' := (f + d) / 4294967296) in *. set (s := f mod 4294967296) in *. clearbody q q' s.
  assert (d = 4294967296 * q' - 4294967296 * q) by lia. assert (q' = q \/ q' < q \/ q < q') by lia. lia.
Qed.
Theorem inc_distinct w work todos sched m ts' m' : cprogs w work = Some todos -> crun sched (map cstart todos) m = (ts', m') -> (forall t, In t ts' -> ct_todo t = []) ->
  (forall a, m a < 2 ^ 32) -> forall a r, a <> 0 -> N.of_nat (requests w work a) <= 2 ^ 32 -> all_results w work ts' a = Some r -> NoDup r.
Proof.
  intros E R F Bm a r Na Br Er. destruct (inc_ok w work todos sched m ts' m' E R F Bm a Na) as (r' & Er' & P & _). rewrite Er in Er'. injection Er' as <-.
  eapply Permutation_NoDup; [apply Permutation_sym, P|]. now apply iota_u32_nodup.
Qed.
Lemma crun_todo j : forall sched ts m ts' m' t, crun sched ts m = (ts', m') -> nth_error ts j = Some t ->
  exists t', nth_error ts' j = Some t' /\ (length (ct_todo t') = length (ct_todo t) - count_occ Nat.eq_dec sched j)%nat.
Proof.
  induction sched as [|i sched IH]; intros ts m ts' m' t R Ht; cbn [crun count_occ] in *; [injection R as <- <-; exists t; split; [assumption|lia]|].
  destruct (nth_error ts i) as [ti|] eqn:Hi.
  - destruct (cstep ti m) as [t1 m1] eqn:St. assert (L1 : length (ct_todo t1) = (length (ct_todo ti) - 1)%nat).
    { unfold cstep in St. destruct (ct_todo ti) as [|[a c] rest] eqn:E; injection St as <- _; cbn [ct_todo length]; [now rewrite E|lia]. }
    assert (Bi : (i < length ts)%nat) by (apply nth_error_Some; congruence).
    destruct (Nat.eq_dec i j) as [->|Ne].
    + rewrite Ht in Hi. injection Hi as <-. destruct (IH _ _ _ _ t1 R ltac:(now apply nth_error_set_nth_eq)) as (t' & H1 & H2). exists t'. split; [assumption|lia].
    + apply (IH _ _ _ _ t R). now rewrite nth_error_set_nth_neq.
  - destruct (Nat.eq_dec i j) as [->|Ne]; [congruence|]. now apply (IH _ _ _ _ t R).
Qed.
Lemma crun_length : forall sched ts m ts' m', crun sched ts m = (ts', m') -> length ts' = length ts.
Proof.
  induction sched as [|i sched IH]; intros ts m ts' m' R; cbn [crun] in R; [now injection R as <- <-|]. destruct (nth_error ts i) as [t|]; [|now apply IH in R].
  destruct (cstep t m) as [t1 m1]. apply IH in R. now rewrite set_nth_length in R.
Qed.
Theorem inc_ends w work : exists todos, cprogs w work = Some todos /\
  forall sched m ts' m', crun sched (map cstart todos) m = (ts', m') ->
    (forall i ops, nth_error todos i = Some ops -> (length ops <= count_occ Nat.eq_dec sched i)%nat) -> forall t, In t ts' -> ct_todo t = [].
Proof.
  destruct (cprogs_some w work) as [todos E]. exists todos. split; [exact E|]. intros sched m ts' m' R C t It. apply In_nth_error in It as [i Hi].
  pose proof (crun_length _ _ _ _ _ R) as L. rewrite map_length in L. assert (Bi : (i < length todos)%nat) by (rewrite <- L; apply nth_error_Some; congruence).
  destruct (nth_error todos i) as [ops|] eqn:Ho; [|apply nth_error_None in Ho; lia].
  destruct (crun_todo i _ _ _ _ _ (cstart ops) R) as (t' & Ht' & Lt). { rewrite nth_error_map, Ho. reflexivity. }
  rewrite Hi in Ht'. injection Ht' as <-. specialize (C i ops Ho). cbn [cstart ct_todo] in Lt. apply length_zero_iff_nil. lia.
Qed.
Lemma cprog1_inv w b ops assign : cprog1 w b = Some (ops, assign) ->
  let ptrs := fun k => if N.testbit (c_active b) k then c_ptr b k else 0 in
  (forall a, a <> 0 -> assigned w ptrs ops assign 0 a /\ lanes_of w b a = group w ptrs a) /\ (forall u, In u ops -> fst u <> 0) /\
  forall k, k < w -> ptrs k = 0 -> assign k = None.
Proof.
  intros E0 ptrs. unfold cprog1, inc in E0. destruct (inc_loop_ok w (S (N.to_nat w)) ptrs (fun _ => None) 0) as (ops' & assign' & E & Ha & Hn & Ho).
  { pose proof (filter_le (fun k => negb (ptrs k =? 0)) (lane_list w)) as L. rewrite lane_length in L. lia. }
  fold ptrs in E0. rewrite E in E0. injection E0 as <- <-. split; [|split; assumption]. intros a Na. split; [now apply Ha|].
  apply filter_ext_in. intros k _. unfold ptrs. destruct (N.testbit (c_active b) k); cbn [andb]; [reflexivity|]. symmetry. apply N.eqb_neq. congruence.
Qed.
Theorem cprog1_single w b ops assign : cprog1 w b = Some (ops, assign) ->
  NoDup (map fst ops) /\ forall a c, In (a, c) ops -> a <> 0 /\ lanes_of w b a <> [] /\ c = N.of_nat (length (lanes_of w b a)).
Proof.
  intros E. destruct (cprog1_inv w b ops assign E) as (Ha & Hn & _). split.
  - assert (G : forall pre suf, ops = pre ++ suf -> NoDup (map fst suf)); [|now apply (G [] ops)].
    intros pre suf. revert pre. induction suf as [|[a c] suf IH]; intros pre Eq; cbn [map]; constructor.
    + intros H. apply in_map_iff in H as ([a' c'] & Ea & H). cbn in Ea. subst a'.
      assert (Na : a <> 0) by (apply (Hn (a, c)); rewrite Eq; apply in_or_app; right; now left).
      destruct (Ha a Na) as [[[_ Z]|(l & r & Eq' & H1 & H2 & _)] _]; [apply (Z (a, c)); [rewrite Eq; apply in_or_app; right; now left|reflexivity]|].
      rewrite Eq in Eq'. clear -Eq' H1 H2 H. revert l Eq' H1. induction pre as [|x pre IH]; intros l Eq' H1; cbn [app] in Eq'.
      * destruct l as [|y l]; cbn [app] in Eq'; injection Eq' as E1 E2; [subst r; exact (H2 _ H eq_refl)|]. subst y. apply (H1 (a, c)); [now left|reflexivity].
      * destruct l as [|y l]; cbn [app] in Eq'; injection Eq' as E1 E2.
        -- apply (H2 (a, c)); [|reflexivity]. rewrite <- E2. apply in_or_app. right. now left.
        -- apply (IH l E2). intros u Hu. apply H1. now right.
    + apply (IH (pre ++ [(a, c)])). rewrite <- app_assoc. exact Eq.
  - intros a c H. assert (Na : a <> 0) by exact (Hn _ H). split; [exact Na|]. destruct (Ha a Na) as [[[_ Z]|(l & r & Eq' & H1 & H2 & G & _)] ->]; [destruct (Z _ H eq_refl)|].
    split; [assumption|]. rewrite Eq' in H. apply in_app_or in H as [H|[H|H]]; [destruct (H1 _ H eq_refl)|now injection H|destruct (H2 _ H eq_refl)].
Qed.
Theorem cprog1_masked w b ops assign done k : cprog1 w b = Some (ops, assign) -> k < w -> N.testbit (c_active b) k = false -> lane_result assign done k = 0.
Proof. intros E Bk Hk. destruct (cprog1_inv w b ops assign E) as (_ & _ & H). unfold lane_result. rewrite H; [reflexivity|assumption|now rewrite Hk]. Qed.
