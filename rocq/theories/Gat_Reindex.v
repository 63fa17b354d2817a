(** Re-indexing an expression is evaluating it at other places. *)
From Verif Require Import Base Op_Model Gat_Model Gat_Spec Gat_Proofs.
Local Open Scope N_scope.

Section Reindex.
Context {K : Type}.
Variable sem : K -> list N -> option N.
Variable junk : N -> N.
Variable old : nat -> N -> N.
Notation gvar := (gvar K).
Notation store := (list gvar).
Notation lane := (lane sem junk old).
Implicit Types (st : store) (v : gvar).
Variable cp : bool.

Lemma still_dep st h v d : gget st h = Some v -> In d (deps_of (g_desc v)) -> still st h -> still st d.
Proof. intros E I S1 x w W; apply S1; eapply within_dep; eassumption. Qed.
Lemma tame_dep st h v d : gget st h = Some v -> In d (deps_of (g_desc v)) -> tame sem st h -> tame sem st d.
Proof. intros E I S1 x w W; apply S1; eapply within_dep; eassumption. Qed.

Lemma default_ok st n st' d : ok st -> 1 <= n < 2 ^ 32 -> mask_default st n = GOk (st', d) ->
  built st st' d Bool n /\ gget st' d = Some (mkG Bool n GDef) /\ forall N l, lane N st' d l = Some (if l <? N then 1 else 0).
Proof.
  intros O B P. apply push_built in P; [|assumption|split; [assumption|split; [constructor|reflexivity]]].
  destruct P as (P & -> & Pg). split; [exact P|split; [exact Pg|]]. destruct P as (X & O' & _).
  intros N l; now rewrite (lane_eq _ _ _ st' N _ _ l O' Pg).
Qed.
Lemma apply_ok st m vm n st' m2 : ok st -> gget st m = Some vm -> 1 <= n < 2 ^ 32 -> g_size vm = 1 \/ g_size vm = n ->
  mask_apply cp st m n = GOk (st', m2) ->
  is_bool (g_ty vm) = true /\ built st st' m2 Bool n /\
  (forall N l, l < N -> lane N st' m l = Some 1 -> lane N st' m2 l = Some 1) /\
  (forall N l, l < N -> lane N st' m l = Some 0 -> lane N st' m2 l = Some 0) /\
  (forall N l, N <= l -> lane N st' m l <> None -> exists z, lane N st' m2 l = Some z /\ z <> 1).
Proof.
  intros O E B S1. unfold mask_apply; rewrite E. destruct (is_bool (g_ty vm)) eqn:Bm; cbn [negb]; [|discriminate].
  destruct (mask_default st n) as [[st1 d]| |] eqn:M; cbn [gbind]; [|discriminate..]. intros A.
  apply default_ok in M; try assumption. destruct M as ((X1 & O1 & _) & Gd & Ld).
  pose proof (ext_get _ _ _ _ X1 E) as E1.
  apply (and_ok sem junk old) with (va := mkG Bool n GDef) (vm := vm) in A; try assumption. destruct A as (_ & Bt & A1 & A2).
  simpl in Bt. assert (Mx : N.max n (g_size vm) = n) by lia. rewrite Mx in Bt. split; [reflexivity|]. destruct Bt as (X2 & O2 & D2).
  split; [split; [exact (ext_trans _ _ _ X1 X2)|split; assumption]|].
  assert (Ld' : forall N l, lane N st' d l = Some (if l <? N then 1 else 0))
    by (intros; rewrite (lane_ext' sem junk old st1 st' N d _ l O1 O2 X2 Gd); apply Ld).
  split; [|split].
  - intros N l L H. rewrite A1, Ld' by assumption. apply N.ltb_lt in L; now rewrite L.
  - intros N l L H. destruct (A2 N l _ 0 H ltac:(discriminate) (Ld' N l)) as (z & Z & _ & Z0). now rewrite Z, Z0.
  - intros N l L H. destruct (lane N st' m l) as [y|] eqn:Y; [|congruence]. destruct (N.eq_dec y 1) as [->|Ny].
    + exists 0. rewrite A1, Ld' by assumption. destruct (N.ltb_spec l N); [lia|]. split; [reflexivity|discriminate].
    + destruct (A2 N l _ y Y Ny (Ld' N l)) as (z & Z & Nz & _). eauto.
Qed.

(** ** The relation between an expression and its re-indexed form *)

Variables (st0 : store) (newi m2 : nat) (vi vm2 : gvar) (n k : N).
Hypothesis O0 : ok st0.
Hypothesis Gi : gget st0 newi = Some vi.
Hypothesis Gm : gget st0 m2 = Some vm2.
Hypothesis Ti : g_ty vi = U32.
Hypothesis Si : g_size vi = 1 \/ g_size vi = n.
Hypothesis Sm : g_size vm2 = n.
Hypothesis Bn : 1 <= n < 2 ^ 32.
Hypothesis Bk : k < 2 ^ 32.

Definition act (l q : N) : Prop := l < n /\ lane n st0 m2 l = Some 1 /\ lane n st0 newi l = Some q /\ q < k.
Definition off (l : N) : Prop := (exists y, lane n st0 m2 l = Some y /\ y <> 1) /\ lane n st0 newi l <> None.

Definition rel st (a b : nat) : Prop :=
  exists va vb, gget st0 a = Some va /\ gget st b = Some vb /\ g_ty vb = g_ty va /\ (g_size vb = 1 \/ g_size vb = n) /\
  match g_desc va with
  | GPtr _ => b = a
  | GPacket c p i m => exists i' m', g_desc vb = GPacket c p i' m' /\ gty st i' = gty st0 i /\
      (still st0 a -> forall l q, act l q -> lane n st i' l = lane k st0 i q /\ lane n st m' l = lane k st0 m q)
  | _ => True
  end /\
  (still st0 a -> forall l q, act l q -> lane n st b l = lane k st0 a q) /\
  (tame sem st0 a -> forall l, off l -> lane n st b l <> None).

Lemma gty_ext' st st' h v : ext st st' -> gget st h = Some v -> gty st' h = gty st h.
Proof. intros X E; unfold gty; now rewrite (ext_get _ _ _ _ X E), E. Qed.
Lemma rel_ext st st' a b : ok st -> ok st' -> ext st st' -> rel st a b -> rel st' a b.
Proof.
  intros O O' X (va & vb & Ea & Eb & T & S1 & P & R1 & R2).
  assert (L : forall h v l, gget st h = Some v -> lane n st' h l = lane n st h l) by (intros; eapply lane_ext'; eassumption).
  exists va, vb. split; [assumption|]. split; [eapply ext_get; eassumption|]. split; [assumption|]. split; [assumption|]. split; [|split].
  - destruct (g_desc va) as [| | | | | | | | | |c p i m| | |]; try assumption. destruct P as (i' & m' & D & Ty & P). exists i', m'. split; [assumption|].
    destruct (O _ _ Eb) as (_ & F & _). rewrite D in F; simpl in F.
    inversion F as [|? ? [Bp _] D2]; inversion D2 as [|? ? [Bi (wi & Gi' & _)] D3]; inversion D3 as [|? ? [Bm (wm & Gm' & _)] _]; subst.
    split; [rewrite <- Ty; eapply gty_ext'; eassumption|]. intros S2 l q A; rewrite (L i' wi), (L m' wm) by assumption; now apply P.
  - intros S2 l q A; rewrite (L b vb) by assumption; now apply R1.
  - intros S2 l A; rewrite (L b vb) by assumption; now apply R2.
Qed.

(** The mask [b] of a re-indexed gather: [b0] restricted to the active lanes *)
Definition masked st (a b : nat) : Prop :=
  exists b0 vb, rel st a b0 /\ gget st b = Some vb /\ (g_size vb = 1 \/ g_size vb = n) /\
  (forall l, lane n st m2 l = Some 1 -> lane n st b l = lane n st b0 l) /\
  (forall l x y, lane n st m2 l = Some y -> y <> 1 -> lane n st b0 l = Some x -> exists z, lane n st b l = Some z /\ z <> 1).
Lemma masked_ext st st' a b : ok st -> ok st' -> ext st0 st -> ext st st' -> masked st a b -> masked st' a b.
Proof.
  intros O O' X0 X (b0 & vb & R & Eb & S1 & M1 & M2).
  assert (L : forall h v l, gget st h = Some v -> lane n st' h l = lane n st h l) by (intros; eapply lane_ext'; eassumption).
  pose proof (ext_get _ _ _ _ X0 Gm) as Gm'. pose proof R as (va & v0 & _ & E0 & _).
  exists b0, vb. split; [exact (rel_ext _ _ _ _ O O' X R)|]. split; [eapply ext_get; eassumption|]. split; [assumption|]. split; intros l.
  - rewrite (L m2 vm2), (L b vb), (L b0 v0) by assumption. apply M1.
  - intros x y. rewrite (L m2 vm2), (L b vb), (L b0 v0) by assumption. apply M2.
Qed.
Definition relp (g : bool) (pos : nat) st a b : Prop := if g && Nat.eqb pos 2 then masked st a b else rel st a b.
Lemma relp_ext g pos st st' a b : ok st -> ok st' -> ext st0 st -> ext st st' -> relp g pos st a b -> relp g pos st' a b.
Proof. unfold relp; intros O O' X0 X; destruct (_ && _); [apply masked_ext|apply rel_ext]; assumption. Qed.
Fixpoint rels (g : bool) (pos : nat) st (hs ds : list nat) : Prop :=
  match hs, ds with
  | [], [] => True
  | h :: hs, d :: ds => relp g pos st h d /\ rels g (S pos) st hs ds
  | _, _ => False
  end.
Definition inv st (M : memo) : Prop := forall a b, mfind M a = Some b -> rel st a b.
Lemma inv_ext st st' M : ok st -> ok st' -> ext st st' -> inv st M -> inv st' M.
Proof. intros O O' X I a b F; apply (rel_ext st st'); auto. Qed.
Lemma inv_add st M a b : inv st M -> rel st a b -> inv st ((a, b) :: M).
Proof. intros I R x y; simpl. destruct (Nat.eqb_spec a x) as [->|]; [injection 1 as <-; assumption|apply I]. Qed.

(** What re-indexing guarantees *)
Definition fine (self : store -> memo -> nat -> gout (store * memo * option nat)) (h : nat) : Prop :=
  forall st M st' M' r, ok st -> ext st0 st -> inv st M -> self st M h = GOk (st', M', r) ->
  ext st st' /\ ok st' /\ inv st' M' /\ forall b, r = Some b -> rel st' h b.

Lemma deps_fine self g : forall hs pos st M st' M' rs, (forall d, In d hs -> fine self d) ->
  ok st -> ext st0 st -> inv st M -> reindex_deps cp m2 self g pos st M hs = GOk (st', M', rs) ->
  ext st st' /\ ok st' /\ inv st' M' /\ forall ds, rs = Some ds -> rels g pos st' hs ds.
Proof.
  induction hs as [|h hs IH]; intros pos st M st' M' rs F O X I; simpl.
  { injection 1 as <- <- <-. split; [apply ext_refl|]. split; [assumption|]. split; [assumption|]. intros ds E; injection E as <-; exact Logic.I. }
  destruct (self st M h) as [[[st1 M1] r]| |] eqn:E1; [simpl|discriminate..].
  destruct (F h ltac:(now left) _ _ _ _ _ O X I E1) as (X1 & O1 & I1 & R1).
  destruct r as [d|]; [|injection 1 as <- <- <-; repeat (split; [assumption|]); discriminate].
  specialize (R1 d eq_refl). pose proof (ext_trans _ _ _ X X1) as X01.
  assert (Step : forall st2 d2, (if g && Nat.eqb pos 2 then gand cp st1 d m2 else GOk (st1, d)) = GOk (st2, d2) ->
    ext st1 st2 /\ ok st2 /\ relp g pos st2 h d2).
  { intros st2 d2. unfold relp. destruct (g && Nat.eqb pos 2); [|injection 1 as <- <-; split; [apply ext_refl|split; assumption]].
    intros A. pose proof R1 as (va & vb & Ea & Eb & T & S1 & _). pose proof (ext_get _ _ _ _ X01 Gm) as Gm1.
    apply (and_ok sem junk old) with (va := vb) (vm := vm2) in A; try assumption. destruct A as (_ & (X2 & O2 & d' & D2) & A1 & A2).
    split; [assumption|split; [assumption|]]. exists d, (mkG (g_ty vb) (N.max (g_size vb) (g_size vm2)) d').
    split; [exact (rel_ext _ _ _ _ O1 O2 X2 R1)|]. split; [assumption|]. split; [simpl; lia|]. split; [apply A1|].
    intros l x y Y Ny Lx. destruct (A2 n l x y Y Ny Lx) as (z & Z & Nz & _); eauto. }
  destruct (if g && Nat.eqb pos 2 then gand cp st1 d m2 else GOk (st1, d)) as [[st2 d2]| |] eqn:E2; [simpl|discriminate..].
  destruct (Step _ _ eq_refl) as (X2 & O2 & R2). pose proof (inv_ext _ _ _ O1 O2 X2 I1) as I2. pose proof (ext_trans _ _ _ X01 X2) as X02.
  destruct (reindex_deps cp m2 self g (S pos) st2 M1 hs) as [[[st3 M3] rs3]| |] eqn:E3; [simpl|discriminate..].
  injection 1 as <- <- <-.
  destruct (IH (S pos) st2 M1 st3 M3 rs3 (fun d I => F d (or_intror I)) O2 X02 I2 E3) as (X3 & O3 & I3 & R3).
  split; [eapply ext_trans; [exact X1|eapply ext_trans; eassumption]|]. split; [assumption|]. split; [assumption|].
  intros ds E. destruct rs3 as [ds3|]; [|discriminate]. injection E as <-. split; [|now apply R3]. eapply relp_ext; [exact O2| |exact X02|exact X3|]; assumption.
Qed.

Lemma act_ext st l q : ok st -> ext st0 st -> act l q -> lane n st m2 l = Some 1 /\ lane n st newi l = Some q.
Proof. intros O X (_ & A & B & _). rewrite (lane_ext' sem junk old st0 st n _ _ l O0 O X Gm), (lane_ext' sem junk old st0 st n _ _ l O0 O X Gi); auto. Qed.
Lemma off_ext st l : ok st -> ext st0 st -> off l -> exists y, lane n st m2 l = Some y /\ y <> 1.
Proof. intros O X (A & _). rewrite (lane_ext' sem junk old st0 st n _ _ l O0 O X Gm); exact A. Qed.

Lemma args_rel st : forall hs ds pos (f g : nat -> N -> option N) l q, rels false pos st hs ds ->
  (forall h d, In h hs -> rel st h d -> f d l = g h q) -> args f ds l = args g hs q.
Proof.
  induction hs as [|h hs IH]; intros [|d ds] pos f g l q; simpl; try contradiction; [reflexivity|].
  intros [R1 R2] H. rewrite (H h d) by (now left || assumption). erewrite IH; [reflexivity|eassumption|]. intros; apply H; [now right|assumption].
Qed.
Lemma args_def st : forall hs ds pos (f : nat -> N -> option N) l, rels false pos st hs ds ->
  (forall h d, In h hs -> rel st h d -> f d l <> None) -> args f ds l <> None.
Proof.
  induction hs as [|h hs IH]; intros [|d ds] pos f l; simpl; try contradiction; [discriminate|].
  intros [R1 R2] H. pose proof (H h d ltac:(now left) R1) as Hd. destruct (f d l); [simpl|congruence].
  pose proof (IH ds (S pos) f l R2 (fun h d I => H h d (or_intror I))) as Hs. destruct (args f ds l); [discriminate|congruence].
Qed.
Lemma rel_ptr st p b : points st0 p -> rel st p b -> b = p.
Proof. intros (t & z & s & E) (va & vb & Ea & _ & _ & _ & P & _). rewrite E in Ea; injection Ea as <-; exact P. Qed.
Lemma load_same st p a : ok st -> ext st0 st -> points st0 p -> load st p a = load st0 p a.
Proof.
  intros O X P. pose proof P as (t & z & s & E). apply (load_ext st0 st (S (length st0))); try assumption.
  - apply gget_bound in E; lia.
  - intros d B; destruct X as [x ->]; apply gget_app; lia.
Qed.
Lemma packet_same st c p a : ok st -> ext st0 st -> points st0 p -> packet_ok st c p a = packet_ok st0 c p a.
Proof.
  intros O X P. pose proof P as (t & z & s & E). apply (packet_ok_ext st0 st (S (length st0))); try assumption.
  - apply gget_bound in E; lia.
  - intros d B; destruct X as [x ->]; apply gget_app; lia.
Qed.
Lemma rel_ty st a b : rel st a b -> gty st b = gty st0 a.
Proof. intros (va & vb & Ea & Eb & T & _). unfold gty; now rewrite Ea, Eb. Qed.

Definition is_gather (d : gdesc K) : bool := match d with GGather _ _ _ => true | _ => false end.
Definition inner (d : gdesc K) : Prop :=
  match d with
  | GOp _ _ | GAnd _ _ | GCopy _ | GCast _ _ | GGather _ _ _ | GPacket _ _ _ _ | GExtract _ _ | GInc _ _ _ => True
  | _ => False
  end.

(** The central step: a node with re-indexed operands *)
Lemma node_rel st h v ds b z : ok st -> ext st0 st -> gget st0 h = Some v -> inner (g_desc v) ->
  rels (is_gather (g_desc v)) 0 st (deps_of (g_desc v)) ds ->
  gget st b = Some (mkG (g_ty v) z (with_deps (g_desc v) ds)) -> z = 1 \/ z = n ->
  rel st h b.
Proof.
  intros O X E In R Gb Sz. exists v, (mkG (g_ty v) z (with_deps (g_desc v) ds)).
  split; [assumption|]. split; [assumption|]. split; [reflexivity|]. split; [assumption|].
  pose proof (O0 _ _ E) as (_ & _ & G).
  assert (LE : forall l q, lane n st b l = Gat_Model.run sem junk old n st (lane n st) b (mkG (g_ty v) z (with_deps (g_desc v) ds)) l /\
                           lane k st0 h q = Gat_Model.run sem junk old k st0 (lane k st0) h v q)
    by (intros l q; split; apply lane_eq; assumption).
  assert (SD : forall d, List.In d (deps_of (g_desc v)) -> (still st0 h -> still st0 d) /\ (tame sem st0 h -> tame sem st0 d))
    by (intros; split; [eapply still_dep|eapply tame_dep]; eassumption).
  assert (RA : still st0 h -> forall l q, act l q -> forall d e, List.In d (deps_of (g_desc v)) -> rel st d e -> lane n st e l = lane k st0 d q).
  { intros St l q A d e Id (? & ? & _ & _ & _ & _ & _ & R1 & _). apply R1; [now apply SD|assumption]. }
  assert (RD : tame sem st0 h -> forall l, off l -> forall d e, List.In d (deps_of (g_desc v)) -> rel st d e -> lane n st e l <> None).
  { intros St l A d e Id (? & ? & _ & _ & _ & _ & _ & _ & R1). apply R1; [now apply SD|assumption]. }
  assert (Tm : tame sem st0 h -> match g_desc v with GOp k _ => forall xs, sem k xs <> None | GPacket _ _ _ _ | GExtract _ _ | GInc _ _ _ => False | _ => True end)
    by (intros T; apply (T h v); [constructor|assumption]).
  assert (Sl : still st0 h -> match g_desc v with GInc _ _ _ => False | _ => True end)
    by (intros T; apply (T h v); [constructor|assumption]).
  unfold Gat_Model.run in LE. cbn [g_desc g_ty g_size] in LE.
  destruct (g_desc v) as [| | | | |o hs|a m|a|t0 a|p i m|c p i m|j a|p i m|] eqn:D; try contradiction; simpl in R; cbn [deps_of] in *.
  - (* operation *) split; [exact Logic.I|]. simpl in LE. split.
    + intros St l q A. destruct (LE l q) as [-> ->]. erewrite args_rel; [reflexivity|exact R|]. intros; now apply RA.
    + intros T l A. destruct (LE l 0) as [-> _]. pose proof (args_def _ _ _ _ (lane n st) l R (fun x d I => RD T l A x d I)) as H.
      destruct (args (lane n st) ds l); [simpl; apply (Tm T)|congruence].
  - (* and *) split; [exact Logic.I|]. destruct ds as [|a' [|m' [|]]]; simpl in R; try (exfalso; clear -R; tauto). destruct R as (Ra & Rm & _). simpl in LE. split.
    + intros St l q A. destruct (LE l q) as [-> ->]. rewrite (RA St l q A a a'), (RA St l q A m m'); (simpl; auto).
    + intros T l A. destruct (LE l 0) as [-> _]. pose proof (RD T l A a a' ltac:(simpl; auto) Ra). pose proof (RD T l A m m' ltac:(simpl; auto) Rm).
      destruct (lane n st a' l); [simpl|congruence]. destruct (lane n st m' l); [discriminate|congruence].
  - (* copy *) split; [exact Logic.I|]. destruct ds as [|a' [|]]; simpl in R; try (exfalso; clear -R; tauto). destruct R as (Ra & _). simpl in LE. split.
    + intros St l q A. destruct (LE l q) as [-> ->]. apply (RA St l q A); [simpl; auto|assumption].
    + intros T l A. destruct (LE l 0) as [-> _]. apply (RD T l A a a'); [simpl; auto|assumption].
  - (* cast *) split; [exact Logic.I|]. destruct ds as [|a' [|]]; simpl in R; try (exfalso; clear -R; tauto). destruct R as (Ra & _). simpl in LE. split.
    + intros St l q A. destruct (LE l q) as [-> ->]. rewrite (RA St l q A a a'); (simpl; auto).
    + intros T l A. destruct (LE l 0) as [-> _]. pose proof (RD T l A a a' ltac:(simpl; auto) Ra). destruct (lane n st a' l); [discriminate|congruence].
  - (* gather *) split; [exact Logic.I|]. destruct ds as [|p' [|i' [|m' [|]]]]; simpl in R; try (exfalso; clear -R; tauto).
    destruct R as (Rp & Ri & (b0 & vb & R0 & _ & _ & M1 & M2) & _). simpl in LE.
    unfold relp in Rp, Ri; simpl in Rp, Ri. apply rel_ptr in Rp; [subst p'|exact G].
    split.
    + intros St l q A. destruct (LE l q) as [-> ->]. rewrite (RA St l q A i i') by (simpl; auto).
      rewrite M1 by (now apply (act_ext st l q)). rewrite (RA St l q A m b0) by (simpl; auto).
      destruct (lane k st0 i q); [simpl|reflexivity]; destruct (lane k st0 m q); [simpl|reflexivity].
      now rewrite (rel_ty _ _ _ Ri), load_same.
    + intros T l A. destruct (LE l 0) as [-> _]. pose proof (RD T l A i i' ltac:(simpl; auto) Ri). pose proof (RD T l A m b0 ltac:(simpl; auto) R0).
      destruct (lane n st i' l); [simpl|congruence]. destruct (off_ext st l O X A) as (y & Y & Ny).
      destruct (lane n st b0 l) as [x0|] eqn:L0; [|congruence]. destruct (M2 l x0 y Y Ny L0) as (z0 & Z & Nz). rewrite Z; simpl.
      destruct (N.eqb_spec z0 1); [congruence|discriminate].
  - (* packet *) destruct ds as [|p' [|i' [|m' [|]]]]; simpl in R; try (exfalso; clear -R; tauto). destruct R as (Rp & Ri & Rm & _). simpl in LE.
    unfold relp in *; simpl in Rp, Ri, Rm. apply rel_ptr in Rp; [subst p'|exact G]. split; [|split].
    + exists i', m'. split; [reflexivity|]. split; [now apply rel_ty|]. intros St l q A; split; apply (RA St l q A); (simpl; auto).
    + intros St l q A. destruct (LE l q) as [-> ->]. rewrite (RA St l q A i i'), (RA St l q A m m') by (simpl; auto).
      destruct (lane k st0 i q); [simpl|reflexivity]; destruct (lane k st0 m q); [simpl|reflexivity].
      now rewrite (rel_ty _ _ _ Ri), packet_same.
    + intros T; destruct (Tm T).
  - (* extract *) split; [exact Logic.I|]. destruct ds as [|a' [|]]; simpl in R; try (exfalso; clear -R; tauto). destruct R as (Ra & _). simpl in LE.
    unfold relp in Ra; simpl in Ra. split; [|intros T; destruct (Tm T)].
    intros St l q A. destruct (LE l q) as [-> ->]. rewrite (RA St l q A a a') by (simpl; auto).
    destruct (lane k st0 a q); [simpl|reflexivity]. destruct G as (t & n1 & c & p & i & m & E2). rewrite E2.
    pose proof (proj1 (SD a ltac:(simpl; auto)) St) as Sa.
    destruct Ra as (va & vb & Ea & Eb & _ & _ & P & _). rewrite E2 in Ea; injection Ea as <-. simpl in P. destruct P as (i' & m' & Db & Ty & P).
    rewrite Eb. destruct vb as [tb nb db]; simpl in Db; subst db. destruct (P Sa l q A) as [-> ->].
    destruct (lane k st0 i q); [simpl|reflexivity]; destruct (lane k st0 m q); [simpl|reflexivity].
    rewrite Ty. destruct (O0 _ _ E2) as (_ & _ & Pp). now rewrite load_same.
  - (* increment *) split; [exact Logic.I|]. split; [intros St; destruct (Sl St)|intros T; destruct (Tm T)].
Qed.

Lemma with_same (d : gdesc K) : with_deps d (deps_of d) = d.
Proof. now destruct d. Qed.
Lemma list_eqb_eq a b : list_eqb a b = true -> a = b.
Proof. unfold list_eqb; now destruct (list_eq_dec Nat.eq_dec a b). Qed.

Lemma rels_len g st : forall hs pos ds, rels g pos st hs ds -> length ds = length hs.
Proof. induction hs as [|h hs IH]; intros pos [|d ds]; simpl; try contradiction; [reflexivity|]. intros [_ R]; f_equal; eauto. Qed.
Lemma relp_get g pos st a b : relp g pos st a b -> exists vb, gget st b = Some vb /\ (g_size vb = 1 \/ g_size vb = n).
Proof. unfold relp; destruct (_ && _); [intros (_ & vb & _ & E & S1 & _)|intros (_ & vb & _ & E & _ & S1 & _)]; eauto. Qed.
Lemma rels_ok g st : forall hs pos ds, rels g pos st hs ds -> Forall (dep_ok st (S (length st)) n) ds.
Proof.
  induction hs as [|h hs IH]; intros pos [|d ds]; simpl; try contradiction; [constructor|]. intros [R1 R2]. constructor; [|eauto].
  apply relp_get in R1 as (vb & E & S1). eapply dep_ok_new; eassumption.
Qed.
Lemma deps_with (d : gdesc K) ds : inner d -> length ds = length (deps_of d) -> deps_of (with_deps d ds) = ds.
Proof.
  destruct d; simpl; try contradiction; intros _ L; try reflexivity;
    repeat (match goal with |- context [match ?x with [] => _ | _ :: _ => _ end] => destruct x; try (simpl in L; lia) end); reflexivity.
Qed.

(** Rebuilding keeps the store well formed *)
Lemma node_good st h v ds : ok st -> ext st0 st -> gget st0 h = Some v -> inner (g_desc v) ->
  rels (is_gather (g_desc v)) 0 st (deps_of (g_desc v)) ds ->
  good st (S (length st)) (mkG (g_ty v) n (with_deps (g_desc v) ds)).
Proof.
  intros O X E In R. pose proof (O0 _ _ E) as (_ & _ & G). split; [assumption|]. cbn [g_desc g_ty g_size]. split.
  - rewrite deps_with; [|assumption|eapply rels_len; eassumption]. eapply rels_ok; eassumption.
  - destruct (g_desc v) as [| | | | |o hs|a m|a|t0 a|p i m|c p i m|j a|p i m|] eqn:D; try contradiction; simpl in R; cbn [deps_of] in *;
      repeat (match type of R with context [match ?x with [] => _ | _ :: _ => _ end] => destruct x; simpl in R; try (exfalso; clear -R; tauto) end);
      try exact Logic.I; simpl.
    + destruct R as (Rp & _). unfold relp in Rp; simpl in Rp. apply rel_ptr in Rp; [subst|exact G]. eapply points_ext; eassumption.
    + destruct R as (Rp & _). unfold relp in Rp; simpl in Rp. apply rel_ptr in Rp; [subst|exact G]. eapply points_ext; eassumption.
    + destruct R as (Ra & _). unfold relp in Ra; simpl in Ra. destruct G as (t & n1 & c & p & i & m & E2).
      destruct Ra as (va & vb & Ea & Eb & _ & _ & P & _). rewrite E2 in Ea; injection Ea as <-. simpl in P. destruct P as (i' & m' & Db & _).
      destruct vb as [tb nb db]; simpl in Db; subst db. repeat eexists; eassumption.
    + destruct R as (Rp & _). unfold relp in Rp; simpl in Rp. apply rel_ptr in Rp; [subst|exact G]. eapply points_ext; eassumption.
Qed.

(** Nodes without operands *)
Lemma lit_rel st h v b z : ok st -> gget st0 h = Some v -> gget st b = Some (mkG (g_ty v) z (g_desc v)) -> z = 1 \/ z = n ->
  (exists x, g_desc v = GLit x) \/ (exists s, g_desc v = GPtr s /\ b = h) -> rel st h b.
Proof.
  intros O E Gb Sz H. exists v, (mkG (g_ty v) z (g_desc v)). split; [assumption|]. split; [assumption|]. split; [reflexivity|]. split; [assumption|].
  assert (L : forall l q, lane n st b l = lane k st0 h q /\ lane n st b l <> None).
  { intros l q. rewrite (lane_eq _ _ _ st n b _ l O Gb), (lane_eq _ _ _ st0 k h v q O0 E). unfold Gat_Model.run; simpl.
    destruct H as [[x ->]|[s [-> _]]]; split; (reflexivity || discriminate). }
  split; [destruct H as [[x ->]|[s [-> ->]]]; [exact Logic.I|reflexivity]|]. split; intros; [apply L|apply (L l 0)].
Qed.
Lemma def_rel st h v b z : ok st -> gget st0 h = Some v -> g_desc v = GDef -> gget st b = Some (mkG Bool z GDef) -> z = 1 \/ z = n -> rel st h b.
Proof.
  intros O E D Gb Sz. exists v, (mkG Bool z GDef). pose proof (O0 _ _ E) as (_ & _ & G); rewrite D in G.
  split; [assumption|]. split; [assumption|]. split; [now rewrite G|]. split; [assumption|]. rewrite D. split; [exact Logic.I|]. split.
  - intros _ l q (A & _ & _ & B). rewrite (lane_eq _ _ _ st n b _ l O Gb), (lane_eq _ _ _ st0 k h v q O0 E). unfold Gat_Model.run; rewrite D; simpl.
    apply N.ltb_lt in A, B; now rewrite A, B.
  - intros _ l _. rewrite (lane_eq _ _ _ st n b _ l O Gb). discriminate.
Qed.
Lemma ctr_rel st h v : ok st -> ext st0 st -> gget st0 h = Some v -> g_desc v = GCtr -> rel st h newi.
Proof.
  intros O X E D. exists v, vi. pose proof (O0 _ _ E) as (_ & _ & G); rewrite D in G. destruct G as [_ G].
  split; [assumption|]. split; [eapply ext_get; eassumption|]. split; [congruence|]. split; [assumption|]. rewrite D. split; [exact Logic.I|]. split.
  - intros _ l q A. destruct (act_ext st l q O X A) as [_ ->]. destruct A as (_ & _ & _ & B).
    rewrite (lane_eq _ _ _ st0 k h v q O0 E). unfold Gat_Model.run; rewrite D. f_equal. symmetry; apply N.mod_small. lia.
  - intros _ l [_ A]. rewrite (lane_ext' sem junk old st0 st n newi vi l O0 O X Gi). exact A.
Qed.

Theorem reindex_fine : forall fuel h, (h <= length st0)%nat -> fine (reindex cp newi m2 n fuel) h.
Proof.
  induction fuel as [|fuel IH]; intros h Bh st M st' M' r O X I; [discriminate|]. cbn [reindex].
  destruct (mfind M h) as [b|] eqn:F.
  { injection 1 as <- <- <-. split; [apply ext_refl|]. split; [assumption|]. split; [assumption|]. intros b' Eb; injection Eb as <-. now apply I. }
  destruct (gget st h) as [v|] eqn:E; [|discriminate].
  assert (E0 : gget st0 h = Some v) by (destruct X as [x ->]; rewrite gget_app in E; assumption).
  pose proof (O0 _ _ E0) as (Bv & Dv & Gv).
  destruct (Nat.ltb 200 (length M)).
  { injection 1 as <- <- <-. split; [apply ext_refl|]. split; [assumption|]. split; [assumption|]. discriminate. }
  set (rebuild := negb (g_size v =? n) && negb (g_size v =? 1)).
  assert (RB : rebuild = false -> g_size v = 1 \/ g_size v = n).
  { unfold rebuild. destruct (N.eqb_spec (g_size v) n), (N.eqb_spec (g_size v) 1); simpl; auto; discriminate. }
  assert (Stop : GOk (st, M, None) = GOk (st', M', r) -> ext st st' /\ ok st' /\ inv st' M' /\ (forall b, r = Some b -> rel st' h b)).
  { injection 1 as <- <- <-. split; [apply ext_refl|]. split; [assumption|]. split; [assumption|]. discriminate. }
  (* keeping the variable or pushing a new one *)
  assert (Fin : forall st1 M1 (rb : bool) d, ok st1 -> ext st st1 -> inv st1 M1 ->
    (rb = true -> good st1 (S (length st1)) (mkG (g_ty v) n d)) ->
    (rb = false -> (g_size v = 1 \/ g_size v = n) /\ d = g_desc v) ->
    (forall st2 b z, ok st2 -> ext st1 st2 -> (rb = false -> b = h) -> gget st2 b = Some (mkG (g_ty v) z d) -> z = 1 \/ z = n -> rel st2 h b) ->
    gbind (if rb then gpush st1 (mkG (g_ty v) n d) else GOk (st1, h)) (fun '(st, r) => GOk (st, (h, r) :: M1, Some r)) = GOk (st', M', r) ->
    ext st st' /\ ok st' /\ inv st' M' /\ (forall b, r = Some b -> rel st' h b)).
  { intros st1 M1 rb d O1 X1 I1 Gn Gs Rl. destruct rb; cbn [gbind].
    - destruct (gpush st1 (mkG (g_ty v) n d)) as [[st2 b]| |] eqn:P; cbn [gbind]; [|discriminate..].
      apply push_built in P; [|assumption|now apply Gn]. destruct P as ((X2 & O2 & _) & _ & Pg).
      injection 1 as <- <- <-. assert (R2 : rel st2 h b) by (eapply Rl; [assumption|assumption|discriminate|exact Pg|now right]).
      split; [exact (ext_trans _ _ _ X1 X2)|]. split; [assumption|]. split; [|intros b' Eb; injection Eb as <-; exact R2].
      apply inv_add; [|assumption]. eapply inv_ext; [exact O1| | |]; assumption.
    - injection 1 as <- <- <-. destruct (Gs eq_refl) as [Sz Ed]. subst d.
      assert (R2 : rel st1 h h). { eapply Rl; [assumption|apply ext_refl|reflexivity| |exact Sz]. rewrite (ext_get _ _ _ _ X1 E); now destruct v. }
      split; [assumption|]. split; [assumption|]. split; [now apply inv_add|intros b' Eb; injection Eb as <-; exact R2]. }
  (* inner nodes *)
  assert (Inn : inner (g_desc v) ->
    gbind (reindex_deps cp m2 (reindex cp newi m2 n fuel) (is_gather (g_desc v)) 0 st M (deps_of (g_desc v))) (fun '(st, m, rs) =>
      match rs with
      | None => GOk (st, m, None)
      | Some ds => gbind (if rebuild || negb (list_eqb ds (deps_of (g_desc v))) then gpush st (mkG (g_ty v) n (with_deps (g_desc v) ds)) else GOk (st, h))
                         (fun '(st, r) => GOk (st, (h, r) :: m, Some r))
      end) = GOk (st', M', r) ->
    ext st st' /\ ok st' /\ inv st' M' /\ (forall b, r = Some b -> rel st' h b)).
  { intros In. destruct (reindex_deps cp m2 (reindex cp newi m2 n fuel) (is_gather (g_desc v)) 0 st M (deps_of (g_desc v))) as [[[st1 M1] rs]| |] eqn:E1; cbn [gbind]; [|discriminate..].
    apply deps_fine in E1; try assumption.
    2: { intros d Id. apply IH. apply Forall_forall with (x := d) in Dv; [|assumption]. destruct Dv as [Bd _]. lia. }
    destruct E1 as (X1 & O1 & I1 & R1). destruct rs as [ds|].
    2: { injection 1 as <- <- <-. repeat (split; [assumption|]); discriminate. }
    specialize (R1 ds eq_refl). pose proof (ext_trans _ _ _ X X1) as X01.
    apply Fin; try assumption.
    - intros _. eapply node_good; eassumption.
    - intros H. apply orb_false_iff in H as [H1 H2]. apply negb_false_iff, list_eqb_eq in H2. subst ds. split; [now apply RB|apply with_same].
    - intros st2 b z O2 X2 _ Gb Sz. eapply node_rel; [exact O2|eapply ext_trans; eassumption|exact E0|exact In| |exact Gb|exact Sz].
      clear -R1 O1 O2 X01 X2 O0 Gm. revert R1. generalize 0%nat (is_gather (g_desc v)) (deps_of (g_desc v)) ds.
      intros pos g hs. revert pos. induction hs as [|x hs IHh]; intros pos [|d ds']; simpl; try contradiction; [reflexivity|].
      intros [Ra Rb]. split; [|now apply IHh]. eapply relp_ext; [exact O1| |exact X01|exact X2|]; assumption. }
  destruct (g_desc v) as [x| | |dt|s|o hs|a m|a|t0 a|p i m|c p i m|j a|p i m|f] eqn:D; try exact (Inn Logic.I); try exact Stop.
  - (* literal *) apply (Fin st M rebuild (GLit x)); try assumption; [apply ext_refl| | |].
    + intros _. now apply lit_good.
    + intros H; split; [now apply RB|reflexivity].
    + intros st2 b z O2 X2 _ Gb Sz. eapply lit_rel; [exact O2|exact E0|rewrite D; exact Gb|exact Sz|left; eauto].
  - (* counter *) injection 1 as <- <- <-. assert (R2 : rel st h newi) by (eapply ctr_rel; eassumption).
    split; [apply ext_refl|]. split; [assumption|]. split; [now apply inv_add|intros b' Eb; injection Eb as <-; exact R2].
  - (* default mask *) destruct rebuild eqn:RBe.
    + destruct (mask_default st n) as [[st1 b]| |] eqn:P; cbn [gbind]; [|discriminate..]. injection 1 as <- <- <-.
      apply default_ok in P; try assumption. destruct P as ((X1 & O1 & _) & Pg & _).
      split; [assumption|]. split; [assumption|]. split; [eapply inv_ext; [exact O| | |]; assumption|]. intros b' Eb; injection Eb as <-.
      eapply def_rel; [exact O1|exact E0|exact D|exact Pg|now right].
    + injection 1 as <- <- <-. assert (R2 : rel st h h).
      { eapply def_rel; [exact O|exact E0|exact D| |exact (RB eq_refl)]. rewrite E. destruct v as [tv nv dv]; simpl in *. now subst. }
      split; [apply ext_refl|]. split; [assumption|]. split; [now apply inv_add|intros b' Eb; injection Eb as <-; exact R2].
  - (* pointer *) destruct Gv as ((S1 & _) & _). assert (Rf : rebuild = false) by (unfold rebuild; rewrite S1; now rewrite andb_false_r). rewrite Rf.
    apply (Fin st M false (GPtr s)); try assumption; [apply ext_refl|discriminate| |].
    + intros _; split; [now left|reflexivity].
    + intros st2 b z O2 X2 Bh' Gb Sz. eapply lit_rel; [exact O2|exact E0|rewrite D; exact Gb|exact Sz|right; exists s; split; [assumption|now apply Bh']].
Qed.
End Reindex.
