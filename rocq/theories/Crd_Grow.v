(** New references, variables and contents. *)
From Verif Require Import Base Crd_Model Crd_Spec Crd_Inv.
Local Open Scope N_scope.
#[local] Ltac Zify.zify_post_hook ::= idtac.

Definition shape (u v : var) : Prop :=
  x_buf u = x_buf v /\ x_off u = x_off v /\ x_len u = x_len v /\ x_own u = x_own v /\ x_dep u = x_dep v.

Record keeps (s s' : state) : Prop := {
  ke_get : forall j v, get s j = Some v -> exists u, get s' j = Some u /\ shape u v;
  ke_buf : forall a, bufs s a <> None -> bufs s' a = bufs s a;
  ke_blocks : blocks s' = blocks s;
  ke_cache : cache s' = cache s;
  ke_reg : registry s' = registry s;
  ke_next : next s <= next s'
}.

Lemma shape_refl v : shape v v.
Proof. repeat split. Qed.
Lemma shape_trans u v w : shape u v -> shape v w -> shape u w.
Proof. intros (A&B&C&D&E) (A'&B'&C'&D'&E'). repeat split; congruence. Qed.

Lemma keeps_refl s : keeps s s.
Proof. split; auto; [|lia]. intros j v G. exists v. split; [exact G|apply shape_refl]. Qed.

Lemma keeps_trans s1 s2 s3 : keeps s1 s2 -> keeps s2 s3 -> keeps s1 s3.
Proof.
  intros A B. split.
  - intros j v G. destruct (ke_get _ _ A _ _ G) as (u & G2 & S2). destruct (ke_get _ _ B _ _ G2) as (w & G3 & S3).
    exists w. split; [exact G3|eapply shape_trans; eauto].
  - intros a NB. rewrite (ke_buf _ _ B), (ke_buf _ _ A); auto. rewrite (ke_buf _ _ A); auto.
  - rewrite (ke_blocks _ _ B). apply (ke_blocks _ _ A).
  - rewrite (ke_cache _ _ B). apply (ke_cache _ _ A).
  - rewrite (ke_reg _ _ B). apply (ke_reg _ _ A).
  - pose proof (ke_next _ _ A). pose proof (ke_next _ _ B). lia.
Qed.

Lemma keeps_cidx s s' : keeps s s' -> cidx s' = cidx s.
Proof. intros K. unfold cidx, idx_of. now rewrite (ke_cache _ _ K), (ke_blocks _ _ K). Qed.

Lemma has_buf s ext pb j v : Inv s ext pb -> get s j = Some v ->
  exists l, bufs s (x_buf v) = Some l /\ x_off v + x_len v <= N.of_nat (length l).
Proof.
  intros H G. destruct (x_own v) eqn:O.
  - destruct (i_own _ _ _ H _ _ G O) as (_ & l & A & B). eauto.
  - destruct (i_sub _ _ _ H _ _ G O) as (p & w & l & _ & _ & _ & _ & A & B). eauto.
Qed.

Lemma keeps_data s s' ext pb j : keeps s s' -> Inv s ext pb -> get s j <> None -> data s' j = data s j.
Proof.
  intros K H N1. destruct (get s j) as [v|] eqn:G; [|congruence].
  destruct (ke_get _ _ K _ _ G) as (u & G2 & (E1 & E2 & E3 & _)). destruct (has_buf _ _ _ _ _ H G) as (l & B & _).
  unfold data. rewrite G, G2. cbn [bind]. rewrite E1, E2, E3, (ke_buf _ _ K) by congruence. reflexivity.
Qed.

Lemma live_in s ext pb i : Inv s ext pb -> In i (ext ++ cidx s ++ deps s) -> get s i <> None.
Proof.
  intros H I. apply count_In in I. pose proof (i_refs _ _ _ H i) as R. unfold refs_of in R.
  destruct (get s i); [discriminate|lia].
Qed.

Lemma dead_not_in s ext pb i : Inv s ext pb -> get s i = None -> ~ In i (ext ++ cidx s ++ deps s).
Proof. intros H G I. apply (live_in _ _ _ _ H I G). Qed.

Lemma in_live s ext pb i v : Inv s ext pb -> get s i = Some v -> In i (ext ++ cidx s ++ deps s).
Proof.
  intros H G. apply count_In. pose proof (i_refs _ _ _ H i) as R. unfold refs_of in R. rewrite G in R.
  pose proof (i_pos _ _ _ H _ _ G). lia.
Qed.

Lemma in_deps s p : In p (deps s) <-> exists j v, get s j = Some v /\ x_dep v = Some p.
Proof.
  unfold deps. rewrite in_flat_map. split.
  - intros ([v|] & I & E); [|destruct E]. cbn in E. destruct (x_dep v) as [q|] eqn:D; [|destruct E].
    destruct E as [->|[]]. apply In_nth_error in I as (j & J). exists j, v. unfold get. now rewrite J.
  - intros (j & v & G & D). unfold get in G. destruct (nth_error (vars s) j) as [[u|]|] eqn:J; try discriminate.
    injection G as ->. exists (Some v). split; [eapply nth_error_In; eauto|]. cbn. rewrite D. now left.
Qed.

(** * One more reference *)
Lemma inc_ok s i ext pb : Inv s ext pb -> get s i <> None ->
  exists s', inc s i = Ret s' /\ Inv s' (i :: ext) pb /\ keeps s s' /\
    (forall j, j <> i -> get s' j = get s j) /\ bufs s' = bufs s /\ next s' = next s /\
    (forall j, get s' j = None <-> get s j = None).
Proof.
  intros H N1. unfold inc. destruct (get s i) as [v|] eqn:G; [|congruence].
  eexists. split; [reflexivity|]. set (s' := set_vars _ _). pose proof (get_lt _ _ _ G) as L.
  assert (GS : forall j, get s' j = if Nat.eqb j i then Some (set_refs v (x_refs v + 1)) else get s j)
    by (intros j; apply get_set; exact L).
  assert (SH : forall j u, get s' j = Some u -> exists x, get s j = Some x /\ shape u x).
  { intros j u. rewrite GS. destruct (Nat.eqb_spec j i) as [->|]; [intros [= <-]; exists v; split; [exact G|repeat split]|].
    intros Q. exists u. split; [exact Q|apply shape_refl]. }
  assert (SB : forall j x, get s j = Some x -> exists u, get s' j = Some u /\ shape u x).
  { intros j x Q. rewrite GS. destruct (Nat.eqb_spec j i) as [->|]; [|exists x; split; [exact Q|apply shape_refl]].
    eexists. split; [reflexivity|]. replace x with v by congruence. repeat split. }
  split; [|split; [|split; [|split; [reflexivity|split; [reflexivity|]]]]].
  - split; change (cache s') with (cache s); change (blocks s') with (blocks s); change (bufs s') with (bufs s);
      change (next s') with (next s); try apply H.
    + intros j. unfold refs_of. rewrite GS. pose proof (i_refs _ _ _ H j) as R. unfold refs_of in R.
      pose proof (deps_set s i v (Some (set_refs v (x_refs v + 1))) j G) as D.
      cbn [dep_of set_refs x_dep] in D. change (deps s') with (flat_map dep_of (set_nth i (Some (set_refs v (x_refs v + 1))) (vars s))).
      change (cidx s') with (cidx s). rewrite !count_app in *. rewrite count_cons.
      destruct (Nat.eqb_spec j i) as [->|NJ].
      * rewrite G in R. destruct (Nat.eq_dec i i); [|congruence]. cbn [x_refs set_refs]. lia.
      * destruct (Nat.eq_dec i j); [congruence|]. destruct (get s j); lia.
    + intros j u. rewrite GS. destruct (Nat.eqb_spec j i) as [->|]; [|apply (i_pos _ _ _ H)].
      intros [= <-]. cbn [x_refs set_refs]. lia.
    + intros j a I. rewrite GS. destruct (Nat.eqb j i); [discriminate|]. eapply (i_clive _ _ _ H); eauto.
    + intros j u Q O. destruct (SH _ _ Q) as (x & X & E1 & E2 & E3 & E4 & E5). rewrite E1, E2, E3, E5.
      apply (i_own _ _ _ H j x X). congruence.
    + intros j k u y Q1 Q2 O1 O2 E. destruct (SH _ _ Q1) as (x & X & E1 & _ & _ & E4 & _).
      destruct (SH _ _ Q2) as (x2 & X2 & F1 & _ & _ & F4 & _).
      apply (i_own1 _ _ _ H j k x x2); congruence.
    + intros j u Q O. destruct (SH _ _ Q) as (x & X & E1 & E2 & E3 & E4 & E5). rewrite E1, E2, E3, E5.
      destruct (i_sub _ _ _ H j x X) as (p & w & l & W1 & W2 & W3 & W4 & W5 & W6); [congruence|].
      destruct (SB _ _ W2) as (w' & X1 & Y1 & Y2 & Y3 & Y4 & Y5).
      exists p, w', l. repeat split; auto; congruence.
    + intros j k u y Q1 Q2 N2 O1 O2 E. destruct (SH _ _ Q1) as (x & X & E1 & E2 & E3 & E4 & _).
      destruct (SH _ _ Q2) as (x2 & X2 & F1 & F2 & F3 & F4 & _). unfold apart. rewrite E2, E3, F2, F3.
      apply (i_apart _ _ _ H j k x x2); congruence.
    + intros a A. destruct (i_used _ _ _ H a A) as (j & x & X & O & B). destruct (SB _ _ X) as (u & U & E1 & _ & _ & E4 & _).
      exists j, u. repeat split; congruence.
  - split; try reflexivity. exact SB.
  - intros j NE. rewrite GS. destruct (Nat.eqb_spec j i); congruence.
  - intros j. rewrite GS. destruct (Nat.eqb_spec j i) as [->|]; [|tauto]. rewrite G. split; discriminate.
Qed.

(** * One more variable *)
Lemma add_ok s ext0 ext pb v f nx : Inv s ext0 pb ->
  (forall j, count j ext0 = (count j ext + count j (dep_of (Some v)))%nat) ->
  next s <= nx -> (forall a, bufs s a <> None -> f a = bufs s a) -> (forall a, f a <> None -> a < nx) ->
  (forall a, f a <> None -> bufs s a <> None \/ (x_own v = true /\ x_buf v = a)) ->
  x_refs v = 1 ->
  (x_own v = true -> x_dep v = None /\ bufs s (x_buf v) = None /\
     exists l, f (x_buf v) = Some l /\ x_off v + x_len v <= N.of_nat (length l)) ->
  (x_own v = false -> (exists p u l, x_dep v = Some p /\ get s p = Some u /\ x_own u = true /\ x_buf u = x_buf v /\
       bufs s (x_buf v) = Some l /\ x_off v + x_len v <= N.of_nat (length l)) /\
     (forall j u, get s j = Some u -> x_own u = false -> x_buf u = x_buf v -> apart v u)) ->
  let s1 := set_next (set_bufs s f) nx in let s' := fst (new_var s1 v) in let i := snd (new_var s1 v) in
  Inv s' (i :: ext) pb /\ keeps s s' /\ get s i = None /\ get s' i = Some v /\
  (forall j, j <> i -> get s' j = get s j) /\ bufs s' = f /\ next s' = nx.
Proof.
  intros H EC LE FB FN FU R1 OWN SUB s1 s' i.
  pose proof (new_var_spec s1 v) as Z. cbv zeta in Z. fold s' in Z. fold i in Z.
  destruct Z as (G0 & G1 & G2 & B1 & B2 & B3 & B4 & B5 & DC).
  change (get s1 i) with (get s i) in G0. change (bufs s1) with f in B1. change (blocks s1) with (blocks s) in B2.
  change (next s1) with nx in B3. change (cache s1) with (cache s) in B4. change (registry s1) with (registry s) in B5.
  change (deps s1) with (deps s) in DC.
  assert (GJ : forall j, j <> i -> get s' j = get s j) by exact G2.
  assert (GC : forall j u, get s' j = Some u -> (j = i /\ u = v) \/ (j <> i /\ get s j = Some u)).
  { intros j u Q. destruct (Nat.eq_dec j i) as [->|NE]; [left; split; congruence|right; split; [exact NE|]].
    rewrite <- GJ; auto. }
  assert (KE : keeps s s').
  { split; [|intros a NB; rewrite B1; auto|exact B2|exact B4|exact B5|rewrite B3; exact LE].
    intros j u Q. exists u. split; [|apply shape_refl]. rewrite GJ; [exact Q|congruence]. }
  pose proof (dead_not_in _ _ _ _ H G0) as ND.
  assert (ND2 : ~ In i (ext ++ cidx s ++ deps s) /\ ~ In i (dep_of (Some v))).
  { rewrite !count_In in *. rewrite !count_app in *. specialize (EC i). lia. }
  split; [|split; [exact KE|split; [exact G0|split; [exact G1|split; [exact G2|split; [exact B1|exact B3]]]]]].
  split; rewrite ?B1, ?B2, ?B3, ?B4.
  - intros j. unfold refs_of. rewrite (keeps_cidx _ _ KE). rewrite !count_app, count_cons, DC.
    pose proof (i_refs _ _ _ H j) as R. unfold refs_of in R. rewrite !count_app, EC in R.
    destruct (Nat.eq_dec i j) as [<-|NE].
    + rewrite G1, R1. rewrite G0 in R. lia.
    + rewrite GJ by auto. destruct (get s j); lia.
  - intros j u Q. destruct (GC _ _ Q) as [[-> ->]|[_ Q2]]; [lia|]. apply (i_pos _ _ _ H _ _ Q2).
  - apply (i_cnd _ _ _ H).
  - intros j a I. pose proof (i_clive _ _ _ H _ _ I). rewrite GJ; [auto|congruence].
  - apply (i_bnd _ _ _ H).
  - apply (i_block _ _ _ H).
  - intros a A. pose proof (i_nextb _ _ _ H _ A). lia.
  - exact FN.
  - intros j u Q O. destruct (GC _ _ Q) as [[-> ->]|[_ Q2]].
    + destruct (OWN O) as (A & _ & B). auto.
    + destruct (i_own _ _ _ H _ _ Q2 O) as (A & l & B & C). split; [exact A|]. exists l. rewrite FB by congruence. auto.
  - intros j k u w Q1 Q2 O1 O2 E. destruct (GC _ _ Q1) as [[-> ->]|[NJ Q1']]; destruct (GC _ _ Q2) as [[-> ->]|[NK Q2']]; auto.
    + destruct (OWN O1) as (_ & A & _). destruct (i_own _ _ _ H _ _ Q2' O2) as (_ & l & B & _). congruence.
    + destruct (OWN O2) as (_ & A & _). destruct (i_own _ _ _ H _ _ Q1' O1) as (_ & l & B & _). congruence.
    + apply (i_own1 _ _ _ H j k u w); auto.
  - intros j u Q O. assert (X : exists p w l, x_dep u = Some p /\ get s p = Some w /\ x_own w = true /\ x_buf w = x_buf u /\
       bufs s (x_buf u) = Some l /\ x_off u + x_len u <= N.of_nat (length l)).
    { destruct (GC _ _ Q) as [[-> ->]|[_ Q2]]; [apply (SUB O)|apply (i_sub _ _ _ H _ _ Q2 O)]. }
    destruct X as (p & w & l & X1 & X2 & X3 & X4 & X5 & X6). exists p, w, l.
    rewrite GJ by congruence. rewrite FB by congruence. repeat split; auto.
  - intros j k u w Q1 Q2 NE O1 O2 E. destruct (GC _ _ Q1) as [[-> ->]|[NJ Q1']]; destruct (GC _ _ Q2) as [[-> ->]|[NK Q2']].
    + congruence.
    + apply (proj2 (SUB O1) k w); auto.
    + destruct (proj2 (SUB O2) j u); auto; [now right|now left].
    + apply (i_apart _ _ _ H j k u w); auto.
  - intros a A. destruct (FU a A) as [A2|[O E]].
    + destruct (i_used _ _ _ H a A2) as (j & u & Q & O & E). exists j, u. rewrite GJ by congruence. auto.
    + exists i, v. auto.
Qed.

Lemma new_array_ok s ext pb xs s' i : Inv s ext pb -> new_array s xs = (s', i) ->
  Inv s' (i :: ext) pb /\ keeps s s' /\ get s i = None /\
  (exists v, get s' i = Some v /\ x_own v = true /\ x_buf v = next s) /\
  data s' i = Some xs /\ bufs s' (next s) = Some xs /\ bufs s (next s) = None /\
  (forall j, j <> i -> get s' j = get s j).
Proof.
  intros H E. unfold new_array in E.
  assert (NN : bufs s (next s) = None).
  { destruct (bufs s (next s)) eqn:B; [|reflexivity]. pose proof (i_next _ _ _ H (next s)). rewrite B in H0. specialize (H0 ltac:(discriminate)). lia. }
  match type of E with new_var _ ?v = _ => set (w := v) in E end.
  destruct (add_ok s ext ext pb w (fupd (bufs s) (next s) (Some xs)) (next s + 1) H) as (A1 & A2 & A3 & A4 & A5 & A6 & A7).
  - intros j. cbn. unfold count. cbn. lia.
  - lia.
  - intros a NB. unfold fupd. destruct (N.eqb_spec a (next s)); [congruence|reflexivity].
  - intros a. unfold fupd. destruct (N.eqb_spec a (next s)); [lia|]. intros NB. pose proof (i_next _ _ _ H _ NB). lia.
  - intros a. unfold fupd. destruct (N.eqb_spec a (next s)); [right; auto|left; auto].
  - reflexivity.
  - intros _. split; [reflexivity|]. split; [exact NN|]. exists xs. cbn [x_buf x_off x_len w]. unfold fupd. rewrite N.eqb_refl.
    split; [reflexivity|lia].
  - discriminate.
  - rewrite E in *. cbn [fst snd] in *. split; [exact A1|]. split; [exact A2|]. split; [exact A3|].
    split; [exists w; auto|]. assert (B : bufs s' (next s) = Some xs) by (rewrite A6; unfold fupd; now rewrite N.eqb_refl).
    split; [|split; [exact B|split; [exact NN|exact A5]]].
    unfold data. rewrite A4. cbn [bind x_buf x_off x_len w]. rewrite B. cbn [bind]. unfold sub.
    rewrite Nat2N.id. cbn [skipn N.to_nat]. now rewrite firstn_all.
Qed.

(** * Other contents *)
Lemma bufs_inv s ext pb a l l' : Inv s ext pb -> bufs s a = Some l -> length l' = length l ->
  Inv (set_bufs s (fupd (bufs s) a (Some l'))) ext pb.
Proof.
  intros H B LE. set (s' := set_bufs _ _).
  assert (X : forall b x, bufs s b = Some x -> exists x', bufs s' b = Some x' /\ length x' = length x).
  { intros b x Q. cbn [bufs s' set_bufs]. unfold fupd. destruct (N.eqb_spec b a) as [->|]; [|eauto].
    exists l'. split; [reflexivity|congruence]. }
  assert (Y : forall b, bufs s' b <> None -> bufs s b <> None).
  { intros b. cbn [bufs s' set_bufs]. unfold fupd. destruct (N.eqb_spec b a) as [->|]; [congruence|auto]. }
  split; try apply H.
  - intros b Q. apply (i_next _ _ _ H). auto.
  - intros j v G O. destruct (i_own _ _ _ H j v G O) as (A & x & Bx & C). destruct (X _ _ Bx) as (x' & X1 & X2).
    split; [exact A|]. exists x'. rewrite X2. auto.
  - intros j v G O. destruct (i_sub _ _ _ H j v G O) as (p & u & x & P1 & P2 & P3 & P4 & P5 & P6).
    destruct (X _ _ P5) as (x' & X1 & X2). exists p, u, x'. rewrite X2. repeat split; auto.
  - intros b Q. apply (i_used _ _ _ H). auto.
Qed.

Lemma firstn_set {A} n k (x : A) l : firstn n (set_nth k x l) = set_nth k x (firstn n l).
Proof.
  revert k l; induction n as [|n IH]; intros [|k] [|y l]; cbn; auto. now rewrite IH.
Qed.

Lemma skipn_set {A} n k (x : A) l : skipn n (set_nth k x l) = if Nat.ltb k n then skipn n l else set_nth (k - n) x (skipn n l).
Proof.
  revert k l; induction n as [|n IH]; intros k l; [cbn [skipn Nat.ltb]; now rewrite Nat.sub_0_r|].
  destruct k as [|k], l as [|y l]; cbn [set_nth skipn Nat.sub]; auto.
  - destruct (Nat.ltb _ _); [reflexivity|]. now destruct (k - n)%nat.
  - rewrite IH. reflexivity.
Qed.

Lemma sub_set_in off len k (x : N) l : off <= k -> sub off len (set_nth (N.to_nat k) x l) = set_nth (N.to_nat (k - off)) x (sub off len l).
Proof.
  intros H. unfold sub. rewrite skipn_set. destruct (Nat.ltb_spec (N.to_nat k) (N.to_nat off)); [lia|].
  rewrite firstn_set. f_equal. lia.
Qed.

Lemma sub_set_out off len k (x : N) l : k < off \/ off + len <= k -> sub off len (set_nth (N.to_nat k) x l) = sub off len l.
Proof.
  intros H. unfold sub. rewrite skipn_set. destruct (Nat.ltb_spec (N.to_nat k) (N.to_nat off)); [reflexivity|].
  rewrite firstn_set. apply set_nth_oob. rewrite firstn_length. lia.
Qed.

Lemma sub_length off len (l : list N) : off + len <= N.of_nat (length l) -> length (sub off len l) = N.to_nat len.
Proof. intros H. unfold sub. rewrite firstn_length, skipn_length. lia. Qed.
