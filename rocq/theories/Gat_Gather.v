(** Gathers: evaluation of the source and all the paths of jitc_var_gather. *)
From Verif Require Import Base Op_Model Gat_Model Gat_Spec Gat_Proofs Gat_Reindex.
Local Open Scope N_scope.

Section Stores.
Context {K : Type}.
Notation gvar := (gvar K).
Notation store := (list gvar).
Implicit Types (st : store) (v : gvar).

Lemma collect_ok f : forall n l d, collect f l n = Some d -> length d = n /\ forall i, (i < n)%nat -> f (l + N.of_nat i) = Some (nth i d 0).
Proof.
  induction n as [|n IH]; intros l d; simpl.
  { injection 1 as <-. split; [reflexivity|lia]. }
  destruct (f l) as [x|] eqn:F; [simpl|discriminate]. destruct (collect f (l + 1) n) as [xs|] eqn:C; [simpl|discriminate].
  injection 1 as <-. destruct (IH _ _ C) as [L H]. split; [simpl; lia|].
  intros [|i] B; simpl; [now rewrite N.add_0_r|]. rewrite <- H by lia. f_equal; lia.
Qed.

Lemma within_ext st st' h x : ok st -> ext st st' -> within st' h x -> (h <= length st)%nat -> within st h x /\ (x <= length st)%nat.
Proof.
  intros O X W. induction W as [h|h v d x E I W IH]; intros B; [split; [constructor|assumption]|].
  assert (E0 : gget st h = Some v) by (destruct X as [y ->]; rewrite gget_app in E; assumption).
  destruct (O _ _ E0) as (_ & F & _). apply Forall_forall with (x := d) in F; [|assumption]. destruct F as [Bd _].
  destruct IH as [W' B']; [lia|]. split; [eapply within_dep; eassumption|assumption].
Qed.
Lemma still_ext st st' h : ok st -> ext st st' -> (h <= length st)%nat -> still st h -> still st' h.
Proof.
  intros O X B S1 x v W E. destruct (within_ext _ _ _ _ O X W B) as [W' B']. apply (S1 x v W').
  destruct X as [y ->]; rewrite gget_app in E; assumption.
Qed.
Lemma tame_ext sem st st' h : ok st -> ext st st' -> (h <= length st)%nat -> tame sem st h -> tame sem st' h.
Proof.
  intros O X B S1 x v W E. destruct (within_ext _ _ _ _ O X W B) as [W' B']. apply (S1 x v W').
  destruct X as [y ->]; rewrite gget_app in E; assumption.
Qed.

Lemma gget_set st h v h' : (0 < h <= length st)%nat -> gget (set_nth (h - 1) v st) h' = if Nat.eqb h' h then Some v else gget st h'.
Proof.
  intros B. destruct (Nat.eqb_spec h' h) as [->|D].
  - destruct h as [|j]; [lia|]; simpl. replace (j - 0)%nat with j by lia. apply nth_error_set_nth_eq; lia.
  - destruct h' as [|j]; [reflexivity|]; simpl. apply nth_error_set_nth_neq; lia.
Qed.

(** A variable that users can hold *)
Definition value v : Prop := match g_desc v with GPacket _ _ _ _ | GPtr _ => False | _ => True end.

Lemma int_index t x p : is_int t = true -> num t x = Z.of_N p -> p < 2 ^ 32 ->
  zwrap U32 (num t x) = p /\ zwrap U64 (num t x) = p /\ (t = U32 -> x = p) /\ (t = U64 -> x = p).
Proof.
  intros _ E B. rewrite E. unfold zwrap; simpl width.
  change (2 ^ Z.of_N 32)%Z with 4294967296%Z. change (2 ^ Z.of_N 64)%Z with 18446744073709551616%Z.
  change (2 ^ 32) with 4294967296 in B.
  split; [|split; [|split]].
  - rewrite Z.mod_small; lia.
  - rewrite Z.mod_small; lia.
  - intros ->; unfold num in E; simpl in E; lia.
  - intros ->; unfold num in E; simpl in E; lia.
Qed.
Lemma ty_eqb_eq a b : ty_eqb a b = true -> a = b.
Proof. destruct a, b; (reflexivity || discriminate). Qed.
End Stores.

Section Gather.
Context {K : Type}.
Variable sem : K -> list N -> option N.
Variable junk : N -> N.
Variable old : nat -> N -> N.
Notation gvar := (gvar K).
Notation store := (list gvar).
Notation lane := (lane sem junk old).
Implicit Types (st : store) (v : gvar).

(** Scalars have the same value in all lanes of all kernels *)
Lemma within_trans st a b c : within st a b -> within st b c -> within st a c.
Proof. intros W; induction W; intros W2; [assumption|]. eapply within_dep; eauto. Qed.
Lemma scalar st : ok st -> forall h v N l, gget st h = Some v -> g_size v = 1 -> still st h -> l < N -> lane N st h l = lane 1 st h 0.
Proof.
  intros O h. induction h as [h IH] using lt_wf_ind. intros v N l E S1 St B.
  rewrite !(lane_eq _ _ _ st _ h v _ O E). pose proof (O _ _ E) as G. pose proof G as (_ & _ & Gd).
  pose proof (St h v ltac:(constructor) E) as Ni.
  destruct (g_desc v) as [| | | | |k ds|a m|a|t0 a|p i m|c p i m|j a|p i m|] eqn:D; try contradiction;
  try (apply run_congr2; [assumption|assumption|rewrite D; exact I| |reflexivity|reflexivity|auto];
       intros d w Bd Ew Sw Wd; apply (IH d ltac:(lia) w); [assumption|lia| |assumption];
       intros x u Wx; apply St; eapply within_trans; [now apply Wd|exact Wx]).
  all: try (unfold Gat_Model.run; rewrite D; reflexivity).
  - destruct Gd; congruence.
  - unfold Gat_Model.run; rewrite D. apply N.ltb_lt in B; now rewrite B.
  - unfold Gat_Model.run; rewrite D, S1. reflexivity.
  - unfold Gat_Model.run; rewrite D. now apply Gd.
Qed.

(** Other variables are not affected *)
Definition keeps st st' : Prop :=
  (forall h v, gget st h = Some v -> exists v', gget st' h = Some v' /\ g_ty v' = g_ty v /\ g_size v' = g_size v) /\
  forall N h v l, gget st h = Some v -> g_size v = 1 \/ g_size v = N -> l < N -> lane N st' h l = lane N st h l.
Lemma keeps_ext st st' : ok st -> ok st' -> ext st st' -> keeps st st'.
Proof. intros O O' X; split; intros; [exists v; split; [eapply ext_get; eassumption|auto]|eapply lane_ext'; eassumption]. Qed.
Lemma keeps_trans a b c : keeps a b -> keeps b c -> keeps a c.
Proof.
  intros [A1 A2] [B1 B2]; split.
  - intros h v E. destruct (A1 h v E) as (v' & E' & T & S1). destruct (B1 h v' E') as (w & Ew & T' & S2). exists w; repeat split; congruence.
  - intros N h v l E S1 B. destruct (A1 h v E) as (v' & E' & T & S2). rewrite (B2 N h v' l) by (assumption || congruence). eauto.
Qed.

Section Eval.
Variables (st st' : store) (src : nat) (v : gvar) (d : list N).
Hypothesis O : ok st.
Hypothesis E : gget st src = Some v.
Hypothesis V : value v.
Hypothesis NM : forall d, g_desc v <> GMem d.
Hypothesis Sz : g_size v <> 1.
Hypothesis Ld : length d = N.to_nat (g_size v).
Hypothesis Cl : forall p, p < g_size v -> lane (g_size v) st src p = Some (nth (N.to_nat p) d 0).
Hypothesis Gs : forall h, gget st' h = if Nat.eqb h src then Some (mkG (g_ty v) (g_size v) (GMem d)) else gget st h.

Lemma set_other h : h <> src -> gget st' h = gget st h.
Proof. intros D; rewrite Gs; now rewrite (proj2 (Nat.eqb_neq _ _) D). Qed.
Lemma set_shape h w : gget st h = Some w -> exists w', gget st' h = Some w' /\ g_ty w' = g_ty w /\ g_size w' = g_size w.
Proof.
  intros Eh. rewrite Gs. destruct (Nat.eqb_spec h src) as [->|D]; [|exists w; auto].
  rewrite E in Eh; injection Eh as <-. eexists; split; [reflexivity|]. auto.
Qed.
Lemma set_points p : points st p -> points st' p.
Proof.
  intros (t & z & s & Ep). exists t, z, s. rewrite set_other; [assumption|]. intros ->. rewrite E in Ep; injection Ep as ->. exact V.
Qed.
Lemma set_packet h t z c p i m : gget st h = Some (mkG t z (GPacket c p i m)) -> gget st' h = Some (mkG t z (GPacket c p i m)).
Proof. intros Eh. rewrite set_other; [assumption|]. intros ->. rewrite E in Eh; injection Eh as ->. exact V. Qed.
Lemma set_ok : ok st'.
Proof.
  intros h w Eh. assert (Bv : 1 <= g_size v < 2 ^ 32) by apply (O _ _ E). rewrite Gs in Eh. destruct (Nat.eqb_spec h src) as [->|D].
  { injection Eh as <-. split; [assumption|]. split; [constructor|]. exact Ld. }
  destruct (O _ _ Eh) as (A & B & C). split; [assumption|]. split.
  - eapply Forall_impl; [|exact B]. intros x (Bx & u & Eu & Su). destruct (set_shape _ _ Eu) as (u' & Eu' & _ & Su').
    split; [assumption|]. exists u'; split; [assumption|]. now rewrite Su'.
  - destruct (g_desc w) as [| | | |s| | | | |p i m|c p i m|j a|p i m|]; try assumption; try (now apply set_points).
    + destruct C as (C1 & C2 & t & z & ds & C3). split; [assumption|split; [assumption|]]. exists t, z, ds. rewrite set_other; [assumption|].
      intros ->. rewrite E in C3; injection C3 as ->. now apply (NM ds).
    + destruct C as (t & z & c & p & i & m & C3). exists t, z, c, p, i, m. now apply set_packet.
Qed.
Lemma set_load p a : points st p -> load st' p a = load st p a.
Proof.
  intros P. pose proof P as (t & z & s & Ep). unfold load. rewrite (set_other p); [rewrite Ep|].
  2: { intros ->. rewrite E in Ep; injection Ep as ->. exact V. }
  destruct (O _ _ Ep) as (_ & _ & _ & _ & t' & z' & ds & Es). rewrite set_other; [reflexivity|].
  intros ->. rewrite E in Es; injection Es as ->. now apply (NM ds).
Qed.
Lemma set_ty h : gty st' h = gty st h.
Proof.
  unfold gty. destruct (gget st h) as [w|] eqn:Eh; [destruct (set_shape _ _ Eh) as (w' & -> & T & _); exact T|].
  rewrite Gs. destruct (Nat.eqb_spec h src) as [->|]; [congruence|now rewrite Eh].
Qed.
Lemma set_lane : forall h w N l, gget st h = Some w -> g_size w = 1 \/ g_size w = N -> l < N -> lane N st' h l = lane N st h l.
Proof.
  pose proof set_ok as O'. intros h. induction h as [h IH] using lt_wf_ind. intros w N l Eh Sw B.
  destruct (Nat.eq_dec h src) as [->|D].
  { rewrite E in Eh; injection Eh as <-. destruct Sw as [Sw|<-]; [congruence|].
    rewrite Cl by assumption. assert (Eh : gget st' src = Some (mkG (g_ty v) (g_size v) (GMem d))) by (rewrite Gs; now rewrite Nat.eqb_refl).
    rewrite (lane_eq _ _ _ st' _ _ _ l O' Eh). unfold Gat_Model.run; simpl. apply N.eqb_neq in Sz; rewrite Sz. apply N.ltb_lt in B; now rewrite B. }
  rewrite (lane_eq _ _ _ st _ _ _ l O Eh). rewrite (lane_eq _ _ _ st' N h w l O') by (now rewrite set_other).
  pose proof (O _ _ Eh) as G.
  assert (Hd : forall x u, (0 < x < h)%nat -> gget st x = Some u -> g_size u = 1 \/ g_size u = g_size w -> lane N st' x l = lane N st x l).
  { intros x u Bx Ex Sx. apply (IH x ltac:(lia) u); [assumption| |assumption]. destruct Sw as [Sw|Sw]; rewrite Sw in Sx; tauto. }
  destruct (g_desc w) as [| | | | |k ds|a m|a|t0 a|p i m|c p i m|j a|p i m|] eqn:Dw;
  try (apply run_congr2; [assumption|assumption|rewrite Dw; exact I| | | |];
       [intros x u Bx Ex Sx _; eapply Hd; eassumption|intros; apply set_ty|intros; now apply set_load|intros; now apply set_packet]).
  all: unfold Gat_Model.run; rewrite Dw; try reflexivity.
  destruct G as (_ & F & _); rewrite Dw in F; simpl in F.
  inversion F as [|? ? [Bp _] D2]; inversion D2 as [|? ? [Bi (wi & Ei & Si)] D3]; inversion D3 as [|? ? [Bm (wm & Em & Sm)] _]; subst.
  rewrite (Hd i wi), (Hd m wm) by assumption. reflexivity.
Qed.
End Eval.

Lemma eval_ok st src v st' : ok st -> gget st src = Some v -> value v -> g_size v <> 1 ->
  geval sem junk old st src = GOk st' ->
  ok st' /\ keeps st st' /\ (forall h, h <> src -> gget st' h = gget st h) /\
  exists d, gget st' src = Some (mkG (g_ty v) (g_size v) (GMem d)) /\
    forall p, p < g_size v -> nth_error d (N.to_nat p) = Some (nth (N.to_nat p) d 0) /\ lane (g_size v) st src p = Some (nth (N.to_nat p) d 0).
Proof.
  intros O E V Sz. unfold geval; rewrite E. pose proof (O _ _ E) as Gv.
  assert (Mem : forall d, g_desc v = GMem d -> GOk st = GOk st' ->
    ok st' /\ keeps st st' /\ (forall h, h <> src -> gget st' h = gget st h) /\
    exists d, gget st' src = Some (mkG (g_ty v) (g_size v) (GMem d)) /\
    forall p, p < g_size v -> nth_error d (N.to_nat p) = Some (nth (N.to_nat p) d 0) /\ lane (g_size v) st src p = Some (nth (N.to_nat p) d 0)).
  { intros d D. injection 1 as <-. split; [assumption|]. split; [apply keeps_ext; try assumption; apply ext_refl|]. split; [reflexivity|].
    exists d. split; [rewrite E, <- D; now destruct v|]. intros p B. destruct Gv as (_ & _ & G); rewrite D in G.
    split; [apply nth_error_nth'; lia|]. rewrite (lane_eq _ _ _ st _ src v p O E). unfold Gat_Model.run; rewrite D.
    apply N.eqb_neq in Sz; rewrite Sz. apply N.ltb_lt in B; now rewrite B. }
  destruct (g_desc v) as [| | |d| | | | | | | | | |] eqn:Dv0; try exact (Mem d eq_refl).
  all: clear Mem; assert (NM : forall d, g_desc v <> GMem d) by congruence; clear Dv0.
  all: destruct (collect (lane (g_size v) st src) 0 (N.to_nat (g_size v))) as [d|] eqn:C; [|discriminate]; injection 1 as <-.
  all: apply collect_ok in C; destruct C as [Ld Cl0]; pose proof (gget_bound _ _ _ E) as Bs.
  all: assert (Cl : forall p, p < g_size v -> lane (g_size v) st src p = Some (nth (N.to_nat p) d 0))
         by (intros q Bq; rewrite <- (Cl0 (N.to_nat q)) by lia; f_equal; lia).
  all: pose proof (gget_set st src (mkG (g_ty v) (g_size v) (GMem d))) as Gs; pose proof (fun h => Gs h Bs) as Gs'; clear Gs; rename Gs' into Gs.
  all: split; [apply (set_ok st _ src v d); assumption|].
  all: split; [split; [intros h w Eh; apply (set_shape st _ src v d); assumption|intros N h w l Eh Sw Bl; apply (set_lane st _ src v d) with (w := w); assumption]|].
  all: split; [intros h Dh; apply (set_other st _ src v d); assumption|].
  all: exists d; split; [rewrite Gs; now rewrite Nat.eqb_refl|]; intros q Bq; split; [apply nth_error_nth'; lia|now apply Cl].
Qed.

Variable cp : bool.
Lemma cast_index st idx vi t st' i2 n : ok st -> gget st idx = Some vi -> t = U32 \/ t = U64 -> gcast cp st idx t = GOk (st', i2) ->
  is_int (g_ty vi) = true ->
  built st st' i2 t (g_size vi) /\
  (forall l x p, lane n st' idx l = Some x -> num (g_ty vi) x = Z.of_N p -> p < 2 ^ 32 -> lane n st' i2 l = Some p) /\
  (forall l, lane n st' idx l <> None -> lane n st' i2 l <> None).
Proof.
  intros O E T C Int. apply (cast_ok sem junk old) with (va := vi) in C; try assumption. destruct C as [B L]. split; [exact B|]. split.
  - intros l x p Lx Nx Bp. rewrite L, Lx. destruct (int_index (g_ty vi) x p Int Nx Bp) as (I1 & I2 & I3 & I4).
    destruct (ty_eqb (g_ty vi) t) eqn:Te; [apply ty_eqb_eq in Te|simpl]; destruct T as [->| ->]; f_equal; auto.
  - intros l Lx. rewrite L. destruct (ty_eqb _ _); [assumption|]. destruct (lane n st' idx l); [discriminate|congruence].
Qed.

(** The source is as before or has been evaluated *)
Definition same_src st st' src (vs : gvar) : Prop :=
  ext st st' \/ exists d, gget st' src = Some (mkG (g_ty vs) (g_size vs) (GMem d)).
(** What a gather guarantees *)
Definition gathered st src idx mask (vs vi : gvar) (n : N) st' r : Prop :=
  ok st' /\ (exists d, gget st' r = Some (mkG (g_ty vs) n d)) /\ keeps st st' /\ same_src st st' src vs /\
  (still st src -> forall l x p, l < n -> lane n st mask l = Some 1 -> lane n st idx l = Some x -> num (g_ty vi) x = Z.of_N p ->
     p < g_size vs -> lane n st' r l = lane (g_size vs) st src p) /\
  (tame sem st src -> forall l, (l < n /\ lane n st' mask l = Some 0) \/ n <= l ->
     (g_size vs = 1 \/ g_size vs = n -> lane n st' src l <> None) -> lane n st' idx l <> None -> lane n st' mask l <> None ->
     lane n st' r l <> None /\ (l < n -> lane n st' r l = Some 0)).

Theorem gather_ok st src idx mask vs vi vm st' r : ok st ->
  gget st src = Some vs -> gget st idx = Some vi -> gget st mask = Some vm -> value vs -> is_int (g_ty vi) = true ->
  gather sem junk old cp st src idx mask = GOk (st', r) ->
  gathered st src idx mask vs vi (N.max (g_size vi) (g_size vm)) st' r.
Proof.
  intros O Es Ei Em V Int. unfold gather.
  pose proof (gget_bound _ _ _ Es) as Bs. pose proof (gget_bound _ _ _ Ei) as Bi. pose proof (gget_bound _ _ _ Em) as Bm.
  destruct (Nat.eqb_spec idx 0) as [->|_]; [lia|]. destruct (Nat.eqb_spec src 0) as [->|_]; [lia|]. destruct (Nat.eqb_spec mask 0) as [->|_]; [lia|].
  cbn [orb]. rewrite Es, Ei, Em. destruct (gcheck vi vm) as [n| |] eqn:Ck; cbn [gbind]; [|discriminate..].
  apply check_ok in Ck as (Nn & Si & Sm). rewrite <- Nn.
  pose proof (ok_size _ _ _ O Es) as Zs. pose proof (ok_size _ _ _ O Ei) as Zi. pose proof (ok_size _ _ _ O Em) as Zm.
  assert (Bn : 1 <= n < 2 ^ 32) by lia. clear Nn.
  destruct (g_is vm 0) eqn:M0.
  { (* always masked *)
    intros P. apply push_built in P; [|assumption|now apply zero_good]. destruct P as ((X & O' & D) & -> & Pg). apply g_is_spec in M0.
    split; [assumption|]. split; [exact D|]. split; [now apply keeps_ext|]. split; [now left|]. split.
    - intros _ l x p _ L. rewrite (lane_lit _ _ _ st n mask vm 0 l O Em M0) in L; discriminate.
    - intros _ l _ _ _ _. rewrite (lane_lit _ _ _ st' n _ _ 0 l O' Pg eq_refl). split; [discriminate|reflexivity]. }
  destruct (N.eqb_spec (g_size vs) 1) as [Ss|Ss].
  { (* scalar source *)
    destruct (gresize st src n) as [[st1 t]| |] eqn:R; cbn [gbind]; [|discriminate..]. intros A.
    apply (resize_ok sem junk old) with (v := vs) in R; try assumption. destruct R as ((X1 & O1 & d1 & G1) & L1).
    pose proof (ext_get _ _ _ _ X1 Em) as Em1. pose proof (ext_get _ _ _ _ X1 Es) as Es1.
    eapply (and_ok sem junk old) in A; [|exact O1|exact G1|exact Em1]. destruct A as (_ & (X2 & O2 & D2) & A1 & A2). simpl in D2.
    replace (N.max n (g_size vm)) with n in D2 by lia. pose proof (ext_trans _ _ _ X1 X2) as X.
    assert (Lt : forall l, lane n st' t l = lane n st' src l).
    { intros l. rewrite (lane_ext' sem junk old st1 st' n t _ l O1 O2 X2 G1), L1. symmetry. eapply lane_ext'; eassumption. }
    assert (Kp : keeps st st') by now apply keeps_ext.
    split; [assumption|]. split; [exact D2|]. split; [exact Kp|]. split; [now left|]. split.
    - intros St l x p B Lm Lx Nx Bp. rewrite <- (proj2 Kp n mask vm l Em) in Lm by assumption. rewrite A1 by assumption. rewrite Lt.
      rewrite (proj2 Kp n src vs l Es) by (auto || assumption). rewrite Ss. assert (p = 0) by lia. subst p. now apply (scalar st O src vs).
    - intros _ l Off Ls Lx Lm. specialize (Ls (or_introl Ss)). rewrite <- Lt in Ls.
      destruct (lane n st' mask l) as [y|] eqn:Y; [|congruence]. destruct (lane n st' t l) as [x|] eqn:T; [|congruence].
      destruct (N.eq_dec y 1) as [->|Ny].
      + rewrite A1, T by assumption. split; [discriminate|]. intros B. destruct Off as [[_ Off]|]; [congruence|lia].
      + destruct (A2 n l x y Y Ny T) as (z & Z & _ & Z0). rewrite Z. split; [discriminate|]. intros B. destruct Off as [[_ Off]|]; [|lia]. f_equal; apply Z0; congruence. }
  destruct (match g_desc vi with GCtr => g_size vi =? g_size vs | _ => false end) eqn:Id.
  { (* identity *)
    assert (Dc : g_desc vi = GCtr /\ g_size vi = g_size vs) by (destruct (g_desc vi); try discriminate Id; apply N.eqb_eq in Id; auto).
    destruct Dc as [Dc Se]. assert (Sn : g_size vs = n) by lia. intros A.
    eapply (and_ok sem junk old) in A; [|exact O|exact Es|exact Em]. destruct A as (_ & (X & O' & D) & A1 & A2).
    replace (N.max (g_size vs) (g_size vm)) with n in D by lia. assert (Kp : keeps st st') by now apply keeps_ext.
    split; [assumption|]. split; [exact D|]. split; [exact Kp|]. split; [now left|]. split.
    - intros St l x p B Lm Lx Nx Bp. rewrite <- (proj2 Kp n mask vm l Em) in Lm by assumption. rewrite A1 by assumption.
      rewrite (proj2 Kp n src vs l Es) by (auto || assumption). rewrite Sn. f_equal.
      rewrite (lane_eq _ _ _ st n idx vi l O Ei) in Lx. unfold Gat_Model.run in Lx; rewrite Dc in Lx. injection Lx as <-.
      destruct (O _ _ Ei) as (_ & _ & G); rewrite Dc in G. destruct G as [_ G]. rewrite G in Nx. unfold num in Nx; simpl in Nx.
      rewrite N.mod_small in Nx by lia. lia.
    - intros _ l Off Ls Lx Lm. specialize (Ls (or_intror Sn)).
      destruct (lane n st' mask l) as [y|] eqn:Y; [|congruence]. destruct (lane n st' src l) as [x|] eqn:T; [|congruence].
      destruct (N.eq_dec y 1) as [->|Ny].
      + rewrite A1, T by assumption. split; [discriminate|]. intros B. destruct Off as [[_ Off]|]; [congruence|lia].
      + destruct (A2 n l x y Y Ny T) as (z & Z & _ & Z0). rewrite Z. split; [discriminate|]. intros B. destruct Off as [[_ Off]|]; [|lia]. f_equal; apply Z0; congruence. }
  clear Id.
  destruct (gcast cp st idx U32) as [[st1 i2]| |] eqn:C; cbn [gbind]; [|discriminate..].
  apply cast_index with (vi := vi) (n := n) in C; try assumption; [|now left]. destruct C as ((X1 & O1 & d1 & G1) & C1 & C2).
  destruct (mask_apply cp st1 mask n) as [[st2 m2]| |] eqn:MA; cbn [gbind]; [|discriminate..].
  apply (apply_ok sem junk old) with (vm := vm) in MA; try assumption; [|eapply ext_get; eassumption].
  destruct MA as (Bvm & (X2 & O2 & d2 & G2) & M1 & M2 & M3).
  pose proof (ext_trans _ _ _ X1 X2) as X12. pose proof (ext_get _ _ _ _ X2 G1) as G1'. pose proof (ext_get _ _ _ _ X12 Es) as Es2.
  destruct (reindex cp i2 m2 n (S src) st2 [] src) as [[[st3 M] ro]| |] eqn:R; cbn [gbind]; [|discriminate..].
  pose proof (reindex_fine sem junk old cp st2 i2 m2 _ _ n (g_size vs) O2 G1' G2 eq_refl Si eq_refl Bn (proj2 Zs) (S src) src
                ltac:(apply ext_len in X12; lia) st2 [] st3 M ro O2 (ext_refl _) ltac:(intros a b H; discriminate H) R) as (X3 & O3 & _ & Rl).
  assert (X13 : ext st st3) by exact (ext_trans _ _ _ X12 X3).
  assert (Li : forall l, lane n st2 i2 l = lane n st1 i2 l) by (intros; eapply lane_ext'; eassumption).
  destruct ro as [r0|].
  { (* re-indexed *)
    specialize (Rl r0 eq_refl). pose proof Rl as (va & vb & Ea & Eb & Tb & Sb & _ & R1 & R2). rewrite Es2 in Ea; injection Ea as <-.
    destruct (gresize st3 r0 n) as [[st4 t]| |] eqn:Rz; cbn [gbind]; [|discriminate..]. intros A.
    apply (resize_ok sem junk old) with (v := vb) in Rz; try assumption. destruct Rz as ((X4 & O4 & d4 & G4) & L4).
    pose proof (ext_get _ _ _ _ (ext_trans _ _ _ X3 X4) G2) as G2'.
    eapply (and_ok sem junk old) in A; [|exact O4|exact G4|exact G2']. destruct A as (_ & (X5 & O5 & D5) & A1 & A2). simpl in D5.
    rewrite N.max_id in D5. rewrite Tb in D5.
    pose proof (ext_trans _ _ _ X13 (ext_trans _ _ _ X4 X5)) as X. assert (Kp : keeps st st') by now apply keeps_ext.
    pose proof (ext_trans _ _ _ X3 (ext_trans _ _ _ X4 X5)) as X25.
    assert (Lt : forall l, lane n st' t l = lane n st3 r0 l).
    { intros l. rewrite (lane_ext' sem junk old st4 st' n t _ l O4 O5 X5 G4), L4. eapply lane_ext'; eassumption. }
    assert (Lm2 : forall l, lane n st' m2 l = lane n st2 m2 l) by (intros; eapply lane_ext'; eassumption).
    assert (Lmk : forall l, lane n st' mask l = lane n st2 mask l) by (intros l; apply lane_ext; try assumption; apply ext_len in X12; lia).
    assert (Lix : forall l, lane n st' idx l = lane n st1 idx l)
      by (intros l; apply lane_ext; try assumption; [exact (ext_trans _ _ _ X2 X25)|apply ext_len in X1; lia]).
    split; [assumption|]. split; [exact D5|]. split; [exact Kp|]. split; [now left|]. split.
    - intros St l x p B Lm Lx Nx Bp. rewrite <- (proj2 Kp n mask vm l Em) in Lm by assumption. rewrite <- (proj2 Kp n idx vi l Ei) in Lx by assumption.
      rewrite Lmk in Lm. rewrite Lix in Lx. pose proof (M1 n l B Lm) as Lm'.
      rewrite A1 by (now rewrite Lm2). rewrite Lt.
      rewrite (R1 (still_ext st st2 src O X12 ltac:(lia) St) l p).
      + eapply lane_ext'; eassumption.
      + split; [assumption|]. split; [assumption|]. split; [|assumption]. rewrite Li. eapply C1; [exact Lx|exact Nx|lia].
    - intros T l Off _ Lx Lm. rewrite Lmk in Off, Lm. rewrite Lix in Lx.
      assert (O2' : exists y, lane n st2 m2 l = Some y /\ y <> 1 /\ (l < n -> y = 0)).
      { destruct Off as [[B Z]|B]; [exists 0; rewrite (M2 n l B Z); repeat split; discriminate|].
        destruct (M3 n l B Lm) as (z & Z & Nz). exists z; repeat split; (assumption || lia). }
      destruct O2' as (y & Y & Ny & Y0).
      assert (Hr : lane n st3 r0 l <> None).
      { apply R2; [apply (tame_ext sem st st2 src O X12); [lia|assumption]|]. split; [eauto|]. rewrite Li. now apply C2. }
      rewrite <- Lt in Hr. destruct (lane n st' t l) as [x|] eqn:Tx; [|congruence]. rewrite <- Lm2 in Y.
      destruct (A2 n l x y Y Ny Tx) as (z & Z & _ & Z0). rewrite Z. split; [discriminate|]. intros B. f_equal. apply Z0. now apply Y0. }
  clear Rl. pose proof (ext_get _ _ _ _ X13 Es) as Es3.
  destruct (geval sem junk old st3 src) as [st4| |] eqn:Ev; cbn [gbind]; [|discriminate..].
  apply eval_ok with (v := vs) in Ev; try assumption. destruct Ev as (O4 & K4 & Oth & d & Gd & Cd).
  pose proof (keeps_trans _ _ _ (keeps_ext _ _ O O3 X13) K4) as Kp4.
  destruct ((n =? 1) && g_lit vi && g_lit vm) eqn:Mc.
  { (* literal index *)
    apply andb_true_iff in Mc as [Mc Lvm]; apply andb_true_iff in Mc as [N1 Lvi]. apply N.eqb_eq in N1. rewrite Gd.
    destruct (g_desc vi) as [pos| | | | | | | | | | | | |] eqn:Dvi; try discriminate. destruct (N.leb_spec (g_size vs) pos) as [|Bp]; [discriminate|].
    intros P. apply push_built in P; [|assumption|].
    2: { split; [simpl; lia|]. split; [constructor|]. reflexivity. }
    destruct P as ((X5 & O5 & D5) & -> & Pg). pose proof (keeps_trans _ _ _ Kp4 (keeps_ext _ _ O4 O5 X5)) as Kp.
    assert (Lr : forall l, lane n st' (S (length st4)) l = Some (nth (N.to_nat pos) d 0)) by (intros; now rewrite (lane_eq _ _ _ st' n _ _ l O5 Pg)).
    split; [assumption|]. split; [rewrite N1; exact D5|]. split; [exact Kp|]. split; [right; exists d; eapply ext_get; eassumption|]. split.
    - intros St l x p B Lm Lx Nx Bq. rewrite Lr. rewrite (lane_lit _ _ _ st n idx vi pos l O Ei Dvi) in Lx; injection Lx as <-.
      assert (pos = p).
      { destruct (O _ _ Ei) as (_ & _ & G). rewrite Dvi in G. unfold num in Nx. destruct (is_sint (g_ty vi)); [|lia].
        unfold sbits in Nx. destruct (pos <? 2 ^ (width (g_ty vi) - 1)); [lia|]. assert (Z.of_N pos < 2 ^ Z.of_N (width (g_ty vi)))%Z; [|lia].
        change 2%Z with (Z.of_N 2). rewrite <- N2Z.inj_pow. lia. }
      subst p. destruct (Cd pos Bp) as [_ Cp]. rewrite <- Cp. eapply lane_ext'; eassumption.
    - intros _ l Off _ _ _. rewrite Lr. split; [discriminate|]. intros B. destruct Off as [[_ Off]|]; [|lia].
      exfalso. assert (Bl : l < n) by assumption. rewrite (proj2 Kp n mask vm l Em) in Off by assumption.
      rewrite (lane_eq _ _ _ st n mask vm l O Em) in Off. unfold Gat_Model.run in Off. unfold g_lit in Lvm. unfold g_is in M0.
      destruct (O _ _ Em) as (_ & _ & Gvm).
      destruct (g_desc vm); try discriminate Lvm; [injection Off as ->; discriminate|]. destruct Gvm as ((_ & Gvm) & _). rewrite Gvm in Bvm; discriminate. }
  (* memory access *)
  clear Mc.
  destruct (proj1 Kp4 _ _ Em) as (vm' & Em4 & Tm4 & Sm4). destruct (proj1 Kp4 _ _ Ei) as (vi' & Ei4 & Ti4 & Si4).
  destruct (mask_apply cp st4 mask n) as [[st5 m5]| |] eqn:MA; cbn [gbind]; [|discriminate..].
  apply (apply_ok sem junk old) with (vm := vm') in MA; try assumption; [|now rewrite Sm4].
  destruct MA as (_ & (X5 & O5 & d5 & G5) & N1 & N2 & N3). pose proof (ext_get _ _ _ _ X5 Gd) as Gd5.
  destruct (gpush st5 (mkG U64 1 (GPtr src))) as [[st6 p6]| |] eqn:P6; cbn [gbind]; [|discriminate..].
  apply push_built in P6; [|assumption|].
  2: { split; [simpl; lia|]. split; [constructor|]. simpl. split; [split; reflexivity|]. split; [apply gget_bound in Gd5; lia|]. eauto. }
  destruct P6 as ((X6 & O6 & _) & -> & G6). pose proof (ext_get _ _ _ _ X6 Gd5) as Gd6. pose proof (ext_trans _ _ _ X5 X6) as X46.
  pose proof (ext_get _ _ _ _ X46 Ei4) as Ei6.
  destruct (gather_index cp st6 src idx) as [[st7 i7]| |] eqn:GI; cbn [gbind]; [|discriminate..].
  unfold gather_index in GI. rewrite Gd6, Ei6, Ti4, Int in GI. cbn [negb g_size] in GI.
  set (t7 := if 2147483647 <? g_size vs then U64 else U32) in GI.
  assert (T7 : t7 = U32 \/ t7 = U64) by (unfold t7; destruct (_ <? _); auto).
  apply cast_index with (vi := vi') (n := n) in GI; try assumption; [|now rewrite Ti4].
  destruct GI as ((X7 & O7 & d7 & G7) & C7 & D7). rewrite Ti4 in C7. rewrite Si4 in G7.
  pose proof (ext_trans _ _ _ X6 X7) as X57. pose proof (ext_trans _ _ _ X5 X57) as X47.
  intros P. apply push_built in P; [|assumption|].
  2: { split; [assumption|]. cbn [g_desc deps_of g_size]. split.
       - constructor; [|constructor; [|constructor; [|constructor]]].
         + eapply dep_ok_new; [eapply ext_get; [exact X7|exact G6]|now left].
         + eapply dep_ok_new; [exact G7|assumption].
         + eapply dep_ok_new; [eapply ext_get; [exact X57|exact G5]|now right].
       - exists U64, 1, src. eapply ext_get; [exact X7|exact G6]. }
  destruct P as ((X8 & O8 & D8) & -> & Pg). pose proof (ext_trans _ _ _ X47 X8) as X48.
  assert (Kp : keeps st st') by (eapply keeps_trans; [exact Kp4|now apply keeps_ext]).
  pose proof (ext_trans _ _ _ X57 X8) as X58.
  assert (Lm5 : forall l, lane n st' m5 l = lane n st5 m5 l) by (intros; eapply lane_ext'; eassumption).
  assert (Lmk : forall l, lane n st' mask l = lane n st5 mask l) by (intros l; apply lane_ext; try assumption; apply gget_bound in Em4; apply ext_len in X5; lia).
  assert (Li7 : forall l, lane n st' i7 l = lane n st7 i7 l) by (intros; eapply lane_ext'; eassumption).
  assert (Lix : forall l, lane n st' idx l = lane n st7 idx l) by (intros l; apply lane_ext; try assumption; apply gget_bound in Ei4; apply ext_len in X47; lia).
  assert (Lr : forall l, lane n st' (S (length st7)) l =
            (let? a := lane n st' i7 l in let? y := lane n st' m5 l in
             if y =? 1 then load st' (S (length st5)) (sbits (width (gty st' i7)) a) else Some 0))
    by (intros; now rewrite (lane_eq _ _ _ st' n _ _ l O8 Pg)).
  split; [assumption|]. split; [exact D8|]. split; [exact Kp|]. split; [right; exists d; eapply ext_get; eassumption|]. split.
  - intros St l x p B Lm Lx Nx Bp. rewrite <- (proj2 Kp n mask vm l Em) in Lm by assumption. rewrite <- (proj2 Kp n idx vi l Ei) in Lx by assumption.
    rewrite Lmk in Lm. rewrite Lix in Lx. rewrite Lr, Lm5, (N1 n l B Lm), Li7, (C7 l x p Lx Nx ltac:(lia)). simpl bind.
    unfold load. rewrite (ext_get _ _ _ _ (ext_trans _ _ _ X7 X8) G6). rewrite (ext_get _ _ _ _ X48 Gd).
    assert (Sp : sbits (width (gty st' i7)) p = Z.of_N p).
    { unfold gty. rewrite (ext_get _ _ _ _ X8 G7). cbn [g_ty]. unfold sbits, t7. destruct (N.ltb_spec 2147483647 (g_size vs)) as [Hb|Hb]; simpl width.
      - change (2 ^ (64 - 1)) with 9223372036854775808. change (2 ^ 32) with 4294967296 in Zs. destruct (N.ltb_spec p 9223372036854775808); [reflexivity|lia].
      - change (2 ^ (32 - 1)) with 2147483648. destruct (N.ltb_spec p 2147483648); [reflexivity|lia]. }
    rewrite Sp. destruct (Z.ltb_spec (Z.of_N p) 0); [lia|]. replace (Z.to_nat (Z.of_N p)) with (N.to_nat p) by lia.
    destruct (Cd p Bp) as [C1p C2p]. rewrite C1p, <- C2p. eapply lane_ext'; eassumption.
  - intros _ l Off _ Lx Lm. rewrite Lmk in Off, Lm. rewrite Lix in Lx. rewrite Lr, Li7, Lm5. specialize (D7 l Lx).
    destruct (lane n st7 i7 l) as [a|]; [simpl|congruence].
    assert (O2' : exists y, lane n st5 m5 l = Some y /\ y <> 1).
    { destruct Off as [[B Z]|B]; [exists 0; rewrite (N2 n l B Z); split; [reflexivity|discriminate]|]. exact (N3 n l B Lm). }
    destruct O2' as (y & Y & Ny). rewrite Y. simpl. apply N.eqb_neq in Ny; rewrite Ny. split; [discriminate|reflexivity].
Qed.
End Gather.
