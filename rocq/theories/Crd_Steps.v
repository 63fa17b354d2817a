(** Every operation of Crd_Model does what Crd_Spec demands. *)
From Verif Require Import Base Par_Model Mkperm_Spec Mkperm_Sort Registry_Model Registry_Spec Registry_Proofs
  Crd_Model Crd_Spec Crd_Inv Crd_Grow Crd_Buckets.
Local Open Scope N_scope.
#[local] Ltac Zify.zify_post_hook ::= idtac.

Definition e_id (e : ibucket) : N := fst (fst e).
Definition e_off (e : ibucket) : N := snd (fst e).
Definition e_size (e : ibucket) : N := snd e.

Definition disjoint (e d : ibucket) : Prop :=
  e_off e + e_size e <= e_off d \/ e_off d + e_size d <= e_off e.

Lemma state_eta s : set_next (set_bufs s (bufs s)) (next s) = s.
Proof. destruct s; reflexivity. Qed.

Lemma mb_ok t p a big (Q : N -> N -> Prop) : forall l s ext pb pv,
  Inv s ext pb -> get s p = Some pv -> x_own pv = true -> x_buf pv = a -> bufs s a = Some big ->
  Forall (fun e => e_off e + e_size e <= N.of_nat (length big)) l ->
  ForallOrdPairs disjoint l ->
  (forall e j u, In e l -> get s j = Some u -> x_own u = false -> x_buf u = a ->
     e_off e + e_size e <= x_off u \/ x_off u + x_len u <= e_off e) ->
  Forall (fun e => exists q, instance_of (registry s) t (e_id e) = Ret q /\ Q (e_id e) q) l ->
  exists s' bs, make_buckets s t p a l = Ret (s', bs) /\ Inv s' (map b_index bs ++ ext) pb /\ keeps s s' /\
    bufs s' = bufs s /\ NoDup (map b_index bs) /\ (forall b, In b bs -> get s (b_index b) = None) /\
    (forall j u, get s' j = Some u -> (In j (map b_index bs) /\ x_dep u = Some p) \/
       exists v, get s j = Some v /\ shape u v) /\
    Forall2 (fun b e => b_id b = e_id e /\ Q (e_id e) (b_ptr b) /\
                        data s' (b_index b) = Some (sub (e_off e) (e_size e) big)) bs l.
Proof.
  induction l as [|[[id off] size] l IH]; intros s ext pb pv H GP OP BP BB FB FD FA FR; cbn [make_buckets].
  - exists s, []. split; [reflexivity|]. split; [exact H|]. split; [apply keeps_refl|]. split; [reflexivity|].
    split; [constructor|]. split; [intros b []|]. split; [|constructor].
    intros j u G. right. exists u. split; [exact G|apply shape_refl].
  - destruct (inc_ok s p ext pb H) as (s1 & E1 & H1 & K1 & N1 & B1 & X1 & L1); [congruence|].
    rewrite E1. cbn [obind].
    destruct (ke_get _ _ K1 _ _ GP) as (pv1 & GP1 & SP1).
    match goal with |- context [new_var s1 ?v] => set (w := v) end.
    inversion FB as [|? ? FB1 FB2]; subst. inversion FD as [|? ? FD1 FD2]; subst.
    inversion FR as [|? ? (q & FR1 & FR1') FR2]; subst. cbn [e_id e_off e_size fst snd] in FB1, FR1, FR1'.
    assert (SH1 : forall j u, get s1 j = Some u -> exists v, get s j = Some v /\ shape u v).
    { intros j u G. destruct (get s j) as [v|] eqn:G0.
      - destruct (ke_get _ _ K1 _ _ G0) as (u' & G' & S'). exists v. split; [reflexivity|]. congruence.
      - apply L1 in G0. congruence. }
    destruct (add_ok s1 (p :: ext) ext pb w (bufs s1) (next s1) H1) as (A1 & A2 & A3 & A4 & A5 & A6 & A7).
    { intros j. cbn [dep_of w x_dep]. rewrite !count_cons. unfold count at 3. cbn. lia. }
    { lia. } { auto. } { apply (i_next _ _ _ H1). } { auto. } { reflexivity. } { discriminate. }
    { intros _. split.
      - exists p, pv1, big. destruct SP1 as (S1 & S2 & S3 & S4 & S5). cbn [w x_dep x_buf x_off x_len].
        rewrite B1. repeat split; auto; congruence.
      - intros j u G O E. destruct (SH1 _ _ G) as (v & G0 & (S1 & S2 & S3 & S4 & S5)). unfold apart.
        rewrite S2, S3. cbn [w x_off x_len]. apply (FA (id, off, size) j v); [now left|exact G0|congruence|].
        rewrite <- S1. exact E. }
    rewrite state_eta in *. destruct (new_var s1 w) as [s2 j] eqn:E2. cbn [fst snd] in *.
    assert (K2 : keeps s s2) by (eapply keeps_trans; eauto).
    assert (JD : get s j = None) by (apply L1; exact A3).
    assert (JP : p <> j) by congruence.
    match goal with |- context [obind ?m _] => change m with (instance_of (registry s2) t id) end.
    rewrite (ke_reg _ _ K2), FR1. cbn [obind].
    destruct (IH s2 (j :: ext) pb pv1 A1) as (s3 & bs & E3 & H3 & K3 & B3 & ND3 & DD3 & SH3 & F3).
    + rewrite A5 by exact JP. exact GP1.
    + destruct SP1 as (S1 & S2 & S3 & S4 & S5). congruence.
    + destruct SP1 as (S1 & S2 & S3 & S4 & S5). congruence.
    + congruence.
    + exact FB2.
    + exact FD2.
    + intros e k u I G O E. destruct (Nat.eq_dec k j) as [->|NK].
      * assert (u = w) by congruence. subst u. cbn [w x_off x_len]. rewrite Forall_forall in FD1.
        destruct (FD1 e I) as [D|D]; cbn [e_off e_size fst snd] in D; unfold e_off, e_size in *; [right|left]; exact D.
      * rewrite A5 in G by exact NK. destruct (SH1 _ _ G) as (v & G0 & (S1 & S2 & S3 & S4 & S5)). rewrite S2, S3.
        apply (FA e k v); [now right|exact G0|congruence|congruence].
    + rewrite (ke_reg _ _ K2). exact FR2.
    + rewrite E3. cbn [obind fst snd]. exists s3, ({| b_ptr := q; b_index := j; b_id := id |} :: bs).
      assert (JI : ~ In j (map b_index bs)).
      { intros I. apply in_map_iff in I as (b & EB & I). pose proof (DD3 b I). rewrite EB in H0. congruence. }
      assert (KK : keeps s s3) by (eapply keeps_trans; eauto).
      split; [reflexivity|]. split.
      { eapply Inv_ext; [|exact H3]. intros k. cbn [map b_index app]. rewrite count_app, !count_cons, count_app. lia. }
      split; [exact KK|]. split; [congruence|]. split.
      { cbn [map b_index]. constructor; auto. }
      split.
      { intros b [<-|I]; [exact JD|]. pose proof (DD3 b I) as D. destruct (get s (b_index b)) as [v|] eqn:G; [|reflexivity].
        destruct (ke_get _ _ K2 _ _ G) as (u & G2 & _). congruence. }
      split.
      { intros k u G. destruct (SH3 _ _ G) as [[I D]|(v & G2 & S2)].
        - left. split; [now right|exact D].
        - destruct (Nat.eq_dec k j) as [->|NK].
          + left. split; [now left|]. assert (v = w) by congruence. subst v. apply S2.
          + right. rewrite A5 in G2 by exact NK. destruct (SH1 _ _ G2) as (v0 & G0 & S0).
            exists v0. split; [exact G0|eapply shape_trans; eauto]. }
      constructor; [|exact F3]. cbn [b_id b_ptr b_index e_id e_off e_size fst snd].
      split; [reflexivity|]. split; [exact FR1'|].
      rewrite (keeps_data s2 s3 _ _ j K3 A1) by congruence. unfold data. rewrite A4. cbn [bind w x_buf x_off x_len].
      rewrite A6, B1, BB. reflexivity.
Qed.

(** * Client *)
Record CI (n : N) (s : state) (c : client) : Prop := {
  k_inv : Inv s (c_held c) [];
  k_val : forall j, In j (c_held c ++ cidx s) -> data s j = Some (c_val c j);
  k_lent : forall i j, In (i, j) (c_lent c) -> In i (c_held c) /\
     exists a bs, In (i, a) (cache s) /\ blocks s a = Some bs /\ In j (map b_index bs);
  k_cache : forall i a, In (i, a) (cache s) -> exists t xs rs bs, c_first c i = Some (t, xs, rs) /\
     blocks s a = Some bs /\ splits rs t xs (map (view (c_val c)) bs);
  k_first : forall i, In i (c_held c ++ cidx s) -> c_first c i <> None -> In i (map fst (cache s));
  k_perm : forall p, In p (deps s) -> ~ In p (c_held c) /\ ~ In p (cidx s) /\ ~ In p (map fst (cache s));
  k_rank : exists (rk : nat -> nat) m, (forall j, rk j < m)%nat /\ forall i a bs b, In (i, a) (cache s) ->
     blocks s a = Some bs -> In b bs -> (rk i < rk (b_index b))%nat;
  k_reg : RI n n (registry s) (c_reg c)
}.

Lemma CI_mono n s c : CI n s c -> CI (n + 1) s c.
Proof. intros []. split; auto. eapply RI_mono; [| |eauto]; lia. Qed.

Lemma CI_init : CI 0 init start.
Proof.
  split; cbn [start c_held c_lent c_val c_first c_reg init cache registry].
  - assert (G : forall i, get init i = None) by (intros [|i]; reflexivity).
    split.
    + intros i. unfold refs_of. rewrite G. reflexivity.
    + intros i v. rewrite G. discriminate.
    + constructor.
    + intros i a [].
    + constructor.
    + intros a. cbn. split; [congruence|intros []].
    + intros a. cbn. congruence.
    + intros a. cbn. congruence.
    + intros i v. rewrite G. discriminate.
    + intros i j v u. rewrite G. discriminate.
    + intros i v. rewrite G. discriminate.
    + intros i j v u. rewrite G. discriminate.
    + intros a. cbn. congruence.
  - intros j [].
  - intros i j [].
  - intros i a [].
  - intros i [].
  - intros p [].
  - exists (fun _ => 0%nat), 1%nat. split; [lia|]. intros i a bs b [].
  - exact RI_init.
Qed.

Lemma held_live n s c i : CI n s c -> In i (c_held c) -> get s i <> None.
Proof. intros C I. eapply live_in; [apply (k_inv _ _ _ C)|]. apply in_or_app. now left. Qed.

Lemma cidx_in s i a bs j : In (i, a) (cache s) -> blocks s a = Some bs -> In j (map b_index bs) -> In j (cidx s).
Proof. intros A B I. unfold cidx. apply in_flat_map. exists (i, a). split; [exact A|]. unfold idx_of. cbn. now rewrite B. Qed.

Lemma lent_cidx n s c i j : CI n s c -> In (i, j) (c_lent c) -> In j (cidx s).
Proof. intros C I. destruct (k_lent _ _ _ C _ _ I) as (_ & a & bs & A & B & D). eapply cidx_in; eauto. Qed.

(** ** New arrays *)
Lemma grown n s c xs s' i : CI n s c -> new_array s xs = (s', i) ->
  ~ In i (c_held c) /\ (forall j, In j (c_held c) -> ~ In (j, i) (c_lent c)) /\
  CI n s' {| c_held := i :: c_held c; c_lent := c_lent c; c_val := fset (c_val c) i xs;
             c_first := fset (c_first c) i None; c_reg := c_reg c |}.
Proof.
  intros C E. destruct (new_array_ok _ _ _ _ _ _ (k_inv _ _ _ C) E) as (H & K & G0 & (v & G1 & OV & BV) & D1 & B1 & B0 & GJ).
  pose proof (dead_not_in _ _ _ _ (k_inv _ _ _ C) G0) as ND. rewrite !in_app_iff in ND.
  pose proof (keeps_cidx _ _ K) as KC.
  assert (NC : ~ In i (map fst (cache s))).
  { intros I. apply in_map_iff in I as ([x a] & EX & I). cbn in EX. subst x. destruct (i_clive _ _ _ (k_inv _ _ _ C) _ _ I G0). }
  split; [tauto|]. split.
  { intros j _ I. apply ND. right; left. eapply lent_cidx; eauto. }
  split; cbn [c_held c_lent c_val c_first c_reg].
  - exact H.
  - intros j I. rewrite KC in I. cbn [app] in I. unfold fset. destruct (Nat.eqb_spec j i) as [->|NE]; [exact D1|].
    destruct I as [->|I]; [congruence|]. rewrite (keeps_data _ _ _ _ _ K (k_inv _ _ _ C)).
    + apply (k_val _ _ _ C _ I).
    + eapply live_in; [apply (k_inv _ _ _ C)|]. rewrite !in_app_iff in *. tauto.
  - intros x y I. destruct (k_lent _ _ _ C _ _ I) as (A & a & bs & X1 & X2 & X3). split; [now right|].
    exists a, bs. rewrite (ke_cache _ _ K), (ke_blocks _ _ K). auto.
  - intros x a I. rewrite (ke_cache _ _ K) in I. rewrite (ke_blocks _ _ K).
    destruct (k_cache _ _ _ C _ _ I) as (t & ys & rs & bs & F1 & F2 & F3). exists t, ys, rs, bs.
    assert (NX : x <> i). { intros ->. apply NC. change i with (fst (i, a)). now apply in_map. }
    unfold fset at 1. destruct (Nat.eqb_spec x i); [congruence|]. split; [exact F1|]. split; [exact F2|].
    replace (map (view (fset (c_val c) i xs)) bs) with (map (view (c_val c)) bs); [exact F3|].
    apply map_ext_in. intros b Ib. unfold view, fset. destruct (Nat.eqb_spec (b_index b) i) as [EB|]; [|reflexivity].
    exfalso. apply ND. right; left. rewrite <- EB. eapply cidx_in; eauto. now apply in_map.
  - intros j I. rewrite KC in I. rewrite (ke_cache _ _ K). unfold fset. destruct (Nat.eqb_spec j i) as [->|NE]; [congruence|].
    cbn [app] in I. destruct I as [->|I]; [congruence|]. apply (k_first _ _ _ C _ I).
  - intros p I. rewrite KC, (ke_cache _ _ K). apply in_deps in I as (j & u & G & D).
    assert (NJ : j <> i).
    { intros ->. assert (u = v) by congruence. subst u. destruct (i_own _ _ _ H _ _ G1 OV) as [X _]. congruence. }
    rewrite GJ in G by exact NJ. assert (I : In p (deps s)) by (apply in_deps; eauto).
    destruct (k_perm _ _ _ C _ I) as (P1 & P2 & P3). split; [|auto]. intros [->|X]; [|tauto]. apply ND. tauto.
  - destruct (k_rank _ _ _ C) as (rk & m & R1 & R2). exists rk, m. split; [exact R1|]. rewrite (ke_cache _ _ K), (ke_blocks _ _ K). exact R2.
  - rewrite (ke_reg _ _ K). apply (k_reg _ _ _ C).
Qed.

(** ** References *)
Lemma more n s c i : CI n s c -> In i (c_held c ++ cidx s) ->
  exists s', inc s i = Ret s' /\ keeps s s' /\
  CI n s' {| c_held := i :: c_held c; c_lent := c_lent c; c_val := c_val c; c_first := c_first c; c_reg := c_reg c |} /\
  (forall j, j <> i -> get s' j = get s j) /\ bufs s' = bufs s.
Proof.
  intros C I. assert (N1 : get s i <> None).
  { eapply live_in; [apply (k_inv _ _ _ C)|]. rewrite !in_app_iff in *. tauto. }
  destruct (inc_ok s i _ _ (k_inv _ _ _ C) N1) as (s' & E & H & K & GJ & B & X & L). exists s'. split; [exact E|]. split; [exact K|].
  split; [|auto]. pose proof (keeps_cidx _ _ K) as KC.
  assert (IN : forall j, In j ((i :: c_held c) ++ cidx s') -> In j (c_held c ++ cidx s)).
  { intros j J. rewrite KC in J. cbn [app] in J. destruct J as [<-|J]; auto. }
  split; cbn [c_held c_lent c_val c_first c_reg].
  - exact H.
  - intros j J. apply IN in J. rewrite (keeps_data _ _ _ _ _ K (k_inv _ _ _ C)); [apply (k_val _ _ _ C _ J)|].
    eapply live_in; [apply (k_inv _ _ _ C)|]. rewrite !in_app_iff in *. tauto.
  - intros x y J. destruct (k_lent _ _ _ C _ _ J) as (A & a & bs & X1 & X2 & X3). split; [now right|].
    exists a, bs. rewrite (ke_cache _ _ K), (ke_blocks _ _ K). auto.
  - rewrite (ke_cache _ _ K), (ke_blocks _ _ K). apply (k_cache _ _ _ C).
  - intros j J. rewrite (ke_cache _ _ K). apply (k_first _ _ _ C). auto.
  - intros p P. rewrite KC, (ke_cache _ _ K). apply in_deps in P as (j & u & G & D).
    assert (exists v, get s j = Some v /\ x_dep v = Some p) as (v & G0 & D0).
    { destruct (get s j) as [v|] eqn:G0; [|apply L in G0; congruence]. destruct (ke_get _ _ K _ _ G0) as (u' & G' & S').
      exists v. split; [reflexivity|]. assert (u' = u) by congruence. subst u'. destruct S' as (_ & _ & _ & _ & S5). congruence. }
    assert (P : In p (deps s)) by (apply in_deps; eauto). destruct (k_perm _ _ _ C _ P) as (P1 & P2 & P3).
    split; [|auto]. intros [->|Y]; [|auto]. rewrite in_app_iff in I. tauto.
  - destruct (k_rank _ _ _ C) as (rk & m & R1 & R2). exists rk, m. split; [exact R1|]. rewrite (ke_cache _ _ K), (ke_blocks _ _ K). exact R2.
  - rewrite (ke_reg _ _ K). apply (k_reg _ _ _ C).
Qed.

Lemma count_drop i j l : In i l -> count j l = ((if Nat.eq_dec i j then 1 else 0) + count j (drop_one i l))%nat.
Proof.
  induction l as [|x l IH]; [intros []|]. cbn [drop_one]. destruct (Nat.eqb_spec x i) as [->|NE].
  - intros _. apply count_cons.
  - intros [->|I]; [congruence|]. rewrite !count_cons, (IH I). lia.
Qed.

Lemma frame_cidx s s' ext pb j : frame s s' -> Inv s' ext pb -> In j (cidx s') -> In j (cidx s).
Proof.
  intros F H I. unfold cidx in *. apply in_flat_map in I as (e & I & J). apply in_flat_map. exists e.
  split; [apply (fr_cache _ _ F _ I)|]. unfold idx_of in *. destruct (blocks s' (snd e)) as [bs|] eqn:B; [|destruct J].
  pose proof (fr_block _ _ F (snd e)) as X. rewrite B in X. rewrite <- X by discriminate. exact J.
Qed.

Lemma fewer n s c i : CI n s c -> In i (c_held c) ->
  exists s', dec_ref s i = Ret s' /\ frame s s' /\ Inv s' (drop_one i (c_held c)) [] /\
  CI n s' {| c_held := drop_one i (c_held c);
             c_lent := if Nat.eqb (count i (c_held c)) 1
                       then filter (fun e => negb (Nat.eqb (fst e) i)) (c_lent c) else c_lent c;
             c_val := c_val c; c_first := c_first c; c_reg := c_reg c |}.
Proof.
  intros C I. assert (H0 : Inv s (i :: drop_one i (c_held c)) []).
  { eapply Inv_ext; [|apply (k_inv _ _ _ C)]. intros j. rewrite count_cons, (count_drop i j) by exact I. reflexivity. }
  destruct (dec_ref_ok _ _ _ _ H0) as (s' & E & H & F). exists s'. split; [exact E|]. split; [exact F|]. split; [exact H|].
  assert (SUBH : forall j, In j (drop_one i (c_held c)) -> In j (c_held c)).
  { intros j J. apply count_In. apply count_In in J. rewrite (count_drop i j) by exact I. lia. }
  assert (IN : forall j, In j (drop_one i (c_held c) ++ cidx s') -> In j (c_held c ++ cidx s) /\ get s' j <> None).
  { intros j J. split.
    - rewrite in_app_iff in *. destruct J as [J|J]; [left; auto|right; eapply frame_cidx; eauto].
    - eapply live_in; [exact H|]. rewrite !in_app_iff in *. tauto. }
  assert (BLK : forall x a, In (x, a) (cache s') -> blocks s' a = blocks s a).
  { intros x a X. apply (fr_block _ _ F). apply (i_block _ _ _ H). apply in_or_app. left. change a with (snd (x, a)). now apply in_map. }
  split; cbn [c_held c_lent c_val c_first c_reg].
  - exact H.
  - intros j J. apply IN in J as [J1 J2]. rewrite (frame_data _ _ _ _ _ F H J2). apply (k_val _ _ _ C _ J1).
  - intros x y J.
    assert (J2 : In (x, y) (c_lent c) /\ In x (drop_one i (c_held c))).
    { destruct (Nat.eqb_spec (count i (c_held c)) 1) as [E1|E1].
      - apply filter_In in J as [J1 J2]. cbn [fst] in J2. split; [exact J1|]. destruct (Nat.eqb_spec x i); [discriminate|].
        destruct (k_lent _ _ _ C _ _ J1) as (A & _). apply count_In in A. apply count_In. rewrite (count_drop i x) in A by exact I.
        destruct (Nat.eq_dec i x); [congruence|lia].
      - split; [exact J|]. destruct (k_lent _ _ _ C _ _ J) as (A & _). pose proof (count_drop i x _ I) as Q.
        apply count_In in A. apply count_In. destruct (Nat.eq_dec i x) as [->|]; lia. }
    destruct J2 as [J1 J2]. split; [exact J2|]. destruct (k_lent _ _ _ C _ _ J1) as (_ & a & bs & X1 & X2 & X3).
    assert (X : In (x, a) (cache s')).
    { apply (fr_stay _ _ F _ X1). eapply live_in; [exact H|]. apply in_or_app. now left. }
    exists a, bs. rewrite (BLK _ _ X). auto.
  - intros x a X. rewrite (BLK _ _ X). apply (k_cache _ _ _ C). apply (fr_cache _ _ F _ X).
  - intros j J. apply IN in J as [J1 J2]. intros N1. pose proof (k_first _ _ _ C _ J1 N1) as X.
    apply in_map_iff in X as (e & EX & X). rewrite <- EX. apply in_map. apply (fr_stay _ _ F _ X). now rewrite EX.
  - intros p P. apply in_deps in P as (j & u & G & D). destruct (fr_get _ _ F _ _ G) as (v & G0 & _ & _ & _ & _ & S5).
    assert (P : In p (deps s)) by (apply in_deps; exists j, v; split; congruence).
    destruct (k_perm _ _ _ C _ P) as (P1 & P2 & P3). split; [auto|]. split.
    + intros Q. apply P2. eapply frame_cidx; eauto.
    + intros Q. apply P3. apply in_map_iff in Q as (e & EX & X). rewrite <- EX. apply in_map. apply (fr_cache _ _ F _ X).
  - destruct (k_rank _ _ _ C) as (rk & m & R1 & R2). exists rk, m. split; [exact R1|]. intros x a bs b X B Ib.
    rewrite (BLK _ _ X) in B. apply (R2 x a bs b); auto. apply (fr_cache _ _ F _ X).
  - rewrite (fr_reg _ _ F). apply (k_reg _ _ _ C).
Qed.
