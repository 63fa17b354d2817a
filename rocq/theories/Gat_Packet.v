(** Packet gathers agree with separate gathers. *)
From Verif Require Import Base Op_Model Gat_Model Gat_Spec Gat_Proofs Gat_Reindex Gat_Gather.
Local Open Scope N_scope.

Section Stores.
Context {K : Type}.
Notation gvar := (gvar K).
Notation store := (list gvar).
Implicit Types (st a b c : store) (v vs : gvar).
Lemma same_src_refl st src vs : same_src st st src vs.
Proof. left; apply ext_refl. Qed.
Lemma same_src_trans a b c src vs vs' : gget a src = Some vs -> gget b src = Some vs' -> g_ty vs' = g_ty vs -> g_size vs' = g_size vs ->
  same_src a b src vs -> same_src b c src vs' -> same_src a c src vs.
Proof.
  intros Ea Eb T S1 [X|(d & E)] [X2|(d2 & E2)].
  - left; eapply ext_trans; eassumption.
  - right; exists d2; congruence.
  - right; exists d; eapply ext_get; eassumption.
  - right; exists d2; congruence.
Qed.
Lemma same_src_still st st' src vs : ok st -> gget st src = Some vs -> same_src st st' src vs -> still st src -> still st' src.
Proof.
  intros O E [X|(d & E')] St; [apply still_ext with (st := st); try assumption; apply gget_bound in E; lia|].
  intros x v W Ex. inversion W as [|h w y x' Ew I W']; subst.
  - rewrite E' in Ex; injection Ex as <-. exact Logic.I.
  - rewrite E' in Ew; injection Ew as <-. destruct I.
Qed.
Lemma same_src_value st st' src vs vs' : gget st src = Some vs -> gget st' src = Some vs' -> same_src st st' src vs -> value vs -> value vs'.
Proof.
  intros E E' [X|(d & E2)] V.
  - rewrite (ext_get _ _ _ _ X E) in E'; injection E' as <-; exact V.
  - rewrite E2 in E'; injection E' as <-. exact Logic.I.
Qed.
End Stores.

Section Packet.
Context {K : Type}.
Variable sem : K -> list N -> option N.
Variable junk : N -> N.
Variable old : nat -> N -> N.
Variable cp : bool.
Notation gvar := (gvar K).
Notation store := (list gvar).
Notation lane := (lane sem junk old).
Notation keeps := (keeps sem junk old).
Implicit Types (st : store) (v : gvar).

Variables (umul uadd : store -> nat -> nat -> gout (store * nat)).
Variable ufma : store -> nat -> nat -> nat -> gout (store * nat).
Variables (packet_ops : bool) (vector_width : N) (unaligned : nat -> bool).
(** 32 bit arithmetic *)
Definition arith2 (f : store -> nat -> nat -> gout (store * nat)) (o : N -> N -> N) : Prop :=
  forall st a b va vb st' r, ok st -> gget st a = Some va -> gget st b = Some vb -> f st a b = GOk (st', r) ->
  g_ty va = U32 /\ built st st' r U32 (N.max (g_size va) (g_size vb)) /\
  forall N l x y, lane N st' a l = Some x -> lane N st' b l = Some y -> lane N st' r l = Some (o x y mod 2 ^ 32).
Definition arith3 (f : store -> nat -> nat -> nat -> gout (store * nat)) (o : N -> N -> N -> N) : Prop :=
  forall st a b c va vb vc st' r, ok st -> gget st a = Some va -> gget st b = Some vb -> gget st c = Some vc -> f st a b c = GOk (st', r) ->
  g_ty va = U32 /\ built st st' r U32 (N.max (g_size va) (N.max (g_size vb) (g_size vc))) /\
  forall N l x y z, lane N st' a l = Some x -> lane N st' b l = Some y -> lane N st' c l = Some z -> lane N st' r l = Some (o x y z mod 2 ^ 32).
Hypothesis Hmul : arith2 umul N.mul.
Hypothesis Hadd : arith2 uadd N.add.
Hypothesis Hfma : arith3 ufma (fun x y z => x * y + z).

(** Component [j] of the packets is entry [x * n + i + j] *)
Definition component (n i : N) st src idx mask (vs : gvar) (N0 : N) st' (j : nat) (r : nat) : Prop :=
  (exists d, gget st' r = Some (mkG (g_ty vs) N0 d)) /\
  (still st src -> forall l x, l < N0 -> lane N0 st mask l = Some 1 -> lane N0 st idx l = Some x ->
     x * n + i + N.of_nat j < g_size vs -> lane N0 st' r l = lane (g_size vs) st src (x * n + i + N.of_nat j)).
Definition packeted (n i : N) (c : nat) st src idx mask vs N0 st' rs : Prop :=
  ok st' /\ keeps st st' /\ same_src st st' src vs /\ length rs = c /\
  forall j, (j < c)%nat -> component n i st src idx mask vs N0 st' j (nth j rs O).

Lemma lane_small st st' N0 h v l : keeps st st' -> gget st h = Some v -> g_size v = 1 \/ g_size v = N0 -> l < N0 -> lane N0 st' h l = lane N0 st h l.
Proof. intros [_ K2] E S1 B; eapply K2; eassumption. Qed.

Lemma lit_ok st x st' r : ok st -> x < 2 ^ 32 -> glit32 st x = GOk (st', r) ->
  built st st' r U32 1 /\ forall N0 l, lane N0 st' r l = Some x.
Proof.
  intros O B P. apply push_built in P; [|assumption|apply lit_good; [lia|exact B]]. destruct P as (P & -> & Pg). split; [exact P|].
  destruct P as (_ & O' & _). intros N0 l. eapply lane_lit; [exact O'|exact Pg|reflexivity].
Qed.

Lemma separate_ok n src idx mask scale N0 : 1 <= N0 ->
  forall c i st vs vi vm vsc st' rs, ok st -> gget st src = Some vs -> gget st idx = Some vi -> gget st mask = Some vm -> gget st scale = Some vsc ->
  value vs -> N0 = N.max (g_size vi) (g_size vm) -> g_size vi = 1 \/ g_size vi = N0 -> g_size vm = 1 \/ g_size vm = N0 ->
  g_size vsc = 1 -> (forall l, l < N0 -> lane N0 st scale l = Some n) -> i + N.of_nat c < 2 ^ 32 ->
  separate sem junk old cp ufma st scale src idx mask i c = GOk (st', rs) ->
  packeted n i c st src idx mask vs N0 st' rs.
Proof.
  intros BN. induction c as [|c IH]; intros i st vs vi vm vsc st' rs O Es Ei Em Esc V HN Si Sm Ssc Lsc Bi; cbn [separate].
  { injection 1 as <- <-. split; [assumption|]. split; [apply keeps_ext; try assumption; apply ext_refl|]. split; [apply same_src_refl|]. split; [reflexivity|lia]. }
  destruct (glit32 st i) as [[st1 i2]| |] eqn:E1; cbn [gbind]; [|discriminate..].
  apply lit_ok in E1; [|assumption|lia]. destruct E1 as ((X1 & O1 & d1 & G1) & L1).
  destruct (ufma st1 idx scale i2) as [[st2 i3]| |] eqn:E2; cbn [gbind]; [|discriminate..].
  eapply Hfma in E2; [|exact O1|eapply ext_get; eassumption|eapply ext_get; eassumption|exact G1].
  destruct E2 as (Ti & (X2 & O2 & d2 & G2) & L2). cbn [g_size] in G2.
  assert (Zi : 1 <= g_size vi) by apply (O _ _ Ei).
  replace (N.max (g_size vi) (N.max (g_size vsc) 1)) with (g_size vi) in G2 by lia.
  pose proof (ext_trans _ _ _ X1 X2) as X12.
  destruct (gather sem junk old cp st2 src i3 mask) as [[st3 r]| |] eqn:E3; cbn [gbind]; [|discriminate..].
  eapply gather_ok in E3; [|exact O2|eapply ext_get; eassumption|exact G2|eapply ext_get; eassumption|assumption|reflexivity].
  cbn [g_size] in E3. rewrite <- HN in E3. destruct E3 as (O3 & (d3 & G3) & K3 & SS3 & A3 & _). cbn [g_ty] in A3.
  destruct (separate sem junk old cp ufma st3 scale src idx mask (i + 1) c) as [[st4 rest]| |] eqn:E4; cbn [gbind]; [|discriminate..].
  injection 1 as <- <-.
  assert (K13 : keeps st st3) by (eapply keeps_trans; [apply keeps_ext; [exact O|exact O2|exact X12]|exact K3]).
  destruct (proj1 K13 _ _ Es) as (vs3 & Es3 & Ts3 & Ss3). destruct (proj1 K13 _ _ Ei) as (vi3 & Ei3 & Ti3 & Si3).
  destruct (proj1 K13 _ _ Em) as (vm3 & Em3 & Tm3 & Sm3). destruct (proj1 K13 _ _ Esc) as (vc3 & Ec3 & Tc3 & Sc3).
  assert (SS : same_src st st3 src vs).
  { eapply same_src_trans; [exact Es|eapply ext_get; [exact X12|exact Es]|reflexivity|reflexivity|now left|exact SS3]. }
  apply IH with (vs := vs3) (vi := vi3) (vm := vm3) (vsc := vc3) in E4; try assumption; try congruence; try lia.
  2: { exact (same_src_value _ _ _ _ _ Es Es3 SS V). }
  2: { intros l Bl. rewrite (lane_small st st3 N0 scale vsc l); auto. }
  destruct E4 as (O4 & K4 & SS4 & L4 & C4). assert (Kp : keeps st st4) by (eapply keeps_trans; [exact K13|exact K4]).
  split; [assumption|]. split; [exact Kp|]. split; [eapply same_src_trans; [exact Es|exact Es3| | | |]; assumption|]. split; [simpl; lia|].
  intros [|j] Bj; cbn [nth].
  - split.
    { destruct (proj1 K4 _ _ G3) as ([t z d] & G & T & Z). simpl in T, Z; subst. eauto. }
    intros St l x Bl Lm Lx Bx. rewrite N.add_0_r in *.
    rewrite (lane_small st3 st4 N0 r _ l K4 G3) by (auto || assumption).
    assert (Lx1 : lane N0 st2 idx l = Some x) by (rewrite <- Lx; eapply lane_ext'; eassumption).
    assert (Lc1 : lane N0 st2 scale l = Some n) by (rewrite <- (Lsc l Bl); eapply lane_ext'; eassumption).
    assert (Li1 : lane N0 st2 i2 l = Some i) by (rewrite <- (L1 N0 l); eapply lane_ext'; eassumption).
    assert (Lm1 : lane N0 st2 mask l = Some 1) by (rewrite <- Lm; eapply lane_ext'; eassumption).
    pose proof (L2 N0 l x n i Lx1 Lc1 Li1) as L3. assert (Zs : g_size vs < 2 ^ 32) by apply (O _ _ Es). rewrite N.mod_small in L3 by lia.
    rewrite (A3 (still_ext st st2 src O X12 ltac:(apply gget_bound in Es; lia) St) l (x * n + i) (x * n + i)); try assumption; [|reflexivity].
    eapply lane_ext'; eassumption.
  - destruct (C4 j ltac:(lia)) as [Sh C]. split; [rewrite <- Ts3; exact Sh|].
    intros St l x Bl Lm Lx Bx. rewrite Ss3 in C. replace (x * n + i + N.of_nat (S j)) with (x * n + (i + 1) + N.of_nat j) in * by lia.
    rewrite (C ltac:(apply (same_src_still st st3 src vs); assumption) l x Bl); try assumption.
    + apply (lane_small st st3 (g_size vs) src vs); auto.
    + now rewrite (lane_small st st3 N0 mask vm l).
    + now rewrite (lane_small st st3 N0 idx vi l).
Qed.

Lemma extracts_ok t N0 op n p i2 m2 : 1 <= N0 < 2 ^ 32 -> forall c i st st' rs, ok st -> gget st op = Some (mkG t N0 (GPacket n p i2 m2)) ->
  extracts st t N0 op i c = GOk (st', rs) ->
  ext st st' /\ ok st' /\ length rs = c /\ forall j, (j < c)%nat -> gget st' (nth j rs O) = Some (mkG t N0 (GExtract (i + N.of_nat j) op)).
Proof.
  intros BN. induction c as [|c IH]; intros i st st' rs O Eo; cbn [extracts].
  { injection 1 as <- <-. split; [apply ext_refl|]. split; [assumption|]. split; [reflexivity|lia]. }
  destruct (gpush st (mkG t N0 (GExtract i op))) as [[st1 r]| |] eqn:P; cbn [gbind]; [|discriminate..].
  apply push_built in P; [|assumption|].
  2: { split; [assumption|]. split; [cbn [g_desc deps_of]; constructor; [|constructor]; eapply dep_ok_new; [exact Eo|now right]|]. repeat eexists; exact Eo. }
  destruct P as ((X1 & O1 & _) & -> & G1).
  destruct (extracts st1 t N0 op (i + 1) c) as [[st2 rest]| |] eqn:E; cbn [gbind]; [|discriminate..]. injection 1 as <- <-.
  apply IH in E; [|assumption|eapply ext_get; eassumption]. destruct E as (X2 & O2 & L & C).
  split; [eapply ext_trans; eassumption|]. split; [assumption|]. split; [simpl; lia|].
  intros [|j] Bj; cbn [nth]; [rewrite N.add_0_r; eapply ext_get; eassumption|]. rewrite C by lia. replace (i + N.of_nat (S j)) with (i + 1 + N.of_nat j) by lia. reflexivity.
Qed.

Lemma halve_pow : forall fuel n e, (N.to_nat e < fuel)%nat -> exists e', halve fuel n (2 ^ e) = 2 ^ e' /\ N.land n (2 ^ e' - 1) = 0.
Proof.
  induction fuel as [|fuel IH]; intros n e B; [lia|]. cbn [halve]. destruct (N.eqb_spec (N.land n (2 ^ e - 1)) 0) as [H|H]; [exists e; auto|].
  destruct (N.eq_dec e 0) as [->|He]; [exfalso; apply H; apply N.land_0_r|].
  replace (2 ^ e / 2) with (2 ^ (e - 1)); [apply IH; lia|].
  replace e with (N.succ (e - 1)) at 2 by lia. rewrite N.pow_succ_r by lia. rewrite N.mul_comm, N.div_mul; [reflexivity|discriminate].
Qed.
Lemma land_pow n e : N.land n (2 ^ e - 1) = n mod 2 ^ e.
Proof. rewrite N.sub_1_r, <- N.ones_equiv. apply N.land_ones. Qed.

(** The packet instruction *)
Lemma direct_ok n src idx mask st vs vi vm N0 st1 st2 m2 st3 p st4 i2 st5 op st' rs :
  ok st -> gget st src = Some vs -> gget st idx = Some vi -> gget st mask = Some vm -> value vs -> is_int (g_ty vi) = true -> g_ty vi = U32 ->
  N0 = N.max (g_size vi) (g_size vm) -> g_size vi = 1 \/ g_size vi = N0 -> g_size vm = 1 \/ g_size vm = N0 ->
  g_size vs <> 1 -> n <> 0 -> g_size vs mod n = 0 ->
  geval sem junk old st src = GOk st1 -> mask_apply cp st1 mask N0 = GOk (st2, m2) -> gpush st2 (mkG U64 1 (GPtr src)) = GOk (st3, p) ->
  gather_index cp st3 src idx = GOk (st4, i2) -> gpush st4 (mkG (g_ty vs) N0 (GPacket n p i2 m2)) = GOk (st5, op) ->
  extracts st5 (g_ty vs) N0 op 0 (N.to_nat n) = GOk (st', rs) ->
  packeted n 0 (N.to_nat n) st src idx mask vs N0 st' rs.
Proof.
  intros O Es Ei Em V Int Ti HN Si Sm Ss Nn Md Ev MA P3 GI P5 Ex.
  pose proof (ok_size _ _ _ O Es) as Zs. pose proof (ok_size _ _ _ O Ei) as Zi. pose proof (ok_size _ _ _ O Em) as Zm.
  assert (BN : 1 <= N0 < 2 ^ 32) by lia. clear HN.
  apply eval_ok with (v := vs) in Ev; try assumption. destruct Ev as (O1 & K1 & _ & d & Gd & Cd).
  destruct (proj1 K1 _ _ Em) as (vm' & Em1 & Tm1 & Sm1). destruct (proj1 K1 _ _ Ei) as (vi' & Ei1 & Ti1 & Si1).
  apply (apply_ok sem junk old) with (vm := vm') in MA; try assumption; [|now rewrite Sm1].
  destruct MA as (_ & (X2 & O2 & d2 & G2) & N1 & _ & _). pose proof (ext_get _ _ _ _ X2 Gd) as Gd2.
  apply push_built in P3; [|assumption|].
  2: { split; [simpl; lia|]. split; [constructor|]. simpl. split; [split; reflexivity|]. split; [apply gget_bound in Gd2; lia|]. eauto. }
  destruct P3 as ((X3 & O3 & _) & -> & G3). pose proof (ext_get _ _ _ _ X3 Gd2) as Gd3. pose proof (ext_trans _ _ _ X2 X3) as X13.
  pose proof (ext_get _ _ _ _ X13 Ei1) as Ei3.
  unfold gather_index in GI. rewrite Gd3, Ei3, Ti1, Int in GI. cbn [negb g_size] in GI.
  set (t4 := if 2147483647 <? g_size vs then U64 else U32) in GI.
  assert (T4 : t4 = U32 \/ t4 = U64) by (unfold t4; destruct (_ <? _); auto).
  eapply (cast_index sem junk old) with (vi := vi') (n := N0) in GI; try eassumption; [|now rewrite Ti1].
  destruct GI as ((X4 & O4 & d4 & G4) & C4 & _). rewrite Ti1 in C4. rewrite Si1 in G4.
  pose proof (ext_trans _ _ _ X3 X4) as X24. pose proof (ext_trans _ _ _ X2 X24) as X14.
  apply push_built in P5; [|assumption|].
  2: { split; [assumption|]. cbn [g_desc deps_of g_size]. split.
       - constructor; [|constructor; [|constructor; [|constructor]]].
         + eapply dep_ok_new; [eapply ext_get; [exact X4|exact G3]|now left].
         + eapply dep_ok_new; [exact G4|assumption].
         + eapply dep_ok_new; [eapply ext_get; [exact X24|exact G2]|now right].
       - exists U64, 1, src. eapply ext_get; [exact X4|exact G3]. }
  destruct P5 as ((X5 & O5 & _) & -> & G5). eapply extracts_ok in Ex; [|exact BN|exact O5|exact G5]. destruct Ex as (X6 & O6 & Lr & Er).
  pose proof (ext_trans _ _ _ X5 X6) as X46. pose proof (ext_trans _ _ _ X14 X46) as X16.
  assert (Kp : keeps st st') by (eapply keeps_trans; [exact K1|now apply keeps_ext]).
  split; [assumption|]. split; [exact Kp|]. split; [right; exists d; eapply ext_get; eassumption|]. split; [exact Lr|].
  intros j Bj. specialize (Er j Bj). split; [eauto|]. rewrite N.add_0_l in Er.
  intros _ l x Bl Lm Lx Bx. rewrite N.add_0_r in *.
  pose proof (ext_trans _ _ _ X24 X46) as X26.
  assert (Lm2 : lane N0 st' m2 l = Some 1).
  { rewrite (lane_ext' sem junk old st2 st' N0 m2 _ l O2 O6 X26 G2). apply N1; [assumption|].
    rewrite (lane_ext' sem junk old st1 st2 N0 mask _ l O1 O2 X2 Em1). rewrite (lane_small st st1 N0 mask vm l); assumption. }
  assert (Li2 : lane N0 st' i2 l = Some x).
  { rewrite (lane_ext' sem junk old st4 st' N0 i2 _ l O4 O6 X46 G4). eapply C4; [|rewrite Ti; reflexivity|].
    - rewrite (lane_ext' sem junk old st1 st4 N0 idx _ l O1 O4 X14 Ei1). rewrite (lane_small st st1 N0 idx vi l); assumption.
    - assert (x * 1 <= x * n) by (apply N.mul_le_mono_l; lia). lia. }
  assert (Ty : sbits (width (gty st' i2)) x = Z.of_N x).
  { assert (Bx' : x < g_size vs) by (assert (x * 1 <= x * n) by (apply N.mul_le_mono_l; lia); lia).
    unfold gty. rewrite (ext_get _ _ _ _ X46 G4). cbn [g_ty]. unfold sbits, t4. destruct (N.ltb_spec 2147483647 (g_size vs)) as [Hb|Hb]; simpl width.
    - change (2 ^ (64 - 1)) with 9223372036854775808. change (2 ^ 32) with 4294967296 in Zs. destruct (N.ltb_spec x 9223372036854775808); [reflexivity|lia].
    - change (2 ^ (32 - 1)) with 2147483648. destruct (N.ltb_spec x 2147483648); [reflexivity|lia]. }
  assert (Ld : forall q, q < g_size vs -> load st' (S (length st2)) (Z.of_N q) = Some (nth (N.to_nat q) d 0)).
  { intros q Bq. unfold load. rewrite (ext_get _ _ _ _ (ext_trans _ _ _ X4 X46) G3). rewrite (ext_get _ _ _ _ X16 Gd).
    destruct (Z.ltb_spec (Z.of_N q) 0); [lia|]. replace (Z.to_nat (Z.of_N q)) with (N.to_nat q) by lia. apply (Cd q Bq). }
  assert (Top : x * n + n <= g_size vs).
  { apply N.mod_divide in Md; [|assumption]. destruct Md as [q Hq]. rewrite Hq in *. assert (x < q); [|nia].
    destruct (N.lt_ge_cases x q) as [|Ge]; [assumption|exfalso]. assert (q * n <= x * n) by (apply N.mul_le_mono_r; assumption). lia. }
  rewrite (lane_eq _ _ _ st' N0 _ _ l O6 Er). unfold Gat_Model.run; cbn [g_desc].
  assert (Po : lane N0 st' (S (length st4)) l = Some 0).
  { rewrite (lane_eq _ _ _ st' N0 _ _ l O6 (ext_get _ _ _ _ X6 G5)). unfold Gat_Model.run; cbn [g_desc]. rewrite Li2, Lm2. simpl bind. rewrite Ty.
    assert (Pk : packet_ok st' n (S (length st2)) (Z.of_N x) = true); [|now rewrite Pk].
    unfold packet_ok. apply forallb_forall. intros q Iq. apply in_seq in Iq.
    replace (Z.of_N x * Z.of_N n + Z.of_nat q)%Z with (Z.of_N (x * n + N.of_nat q)) by lia. now rewrite Ld by lia. }
  rewrite Po. cbn [bind]. rewrite (ext_get _ _ _ _ X6 G5). rewrite Li2, Lm2. cbn [bind]. change (1 =? 1) with true. cbn iota. rewrite Ty.
  replace (Z.of_N x * Z.of_N n + Z.of_N (N.of_nat j))%Z with (Z.of_N (x * n + N.of_nat j)) by lia.
  rewrite Ld by assumption. symmetry. apply (Cd _ Bx).
Qed.

(** Splitting into smaller packets: piece [a] covers the components from [a * ps] *)
Lemma pieces_ok (self : store -> nat -> gout (store * list nat)) ps q src mask N0 step ty0 z0 :
  (forall st idx vs vi vm st' rs, ok st -> gget st src = Some vs -> gget st idx = Some vi -> gget st mask = Some vm -> value vs ->
     N0 = N.max (g_size vi) (g_size vm) -> g_size vi = 1 \/ g_size vi = N0 -> g_size vm = 1 \/ g_size vm = N0 ->
     g_ty vi = U32 -> self st idx = GOk (st', rs) -> packeted ps 0 (N.to_nat ps) st src idx mask vs N0 st' rs) -> 1 <= N0 -> ps <> 0 ->
  forall c a st idx vs vi vm vst st' rs, ok st -> gget st src = Some vs -> gget st idx = Some vi -> gget st mask = Some vm -> gget st step = Some vst ->
  value vs -> g_ty vs = ty0 -> g_size vs = z0 -> N0 = N.max (g_size vi) (g_size vm) -> g_size vi = 1 \/ g_size vi = N0 -> g_size vm = 1 \/ g_size vm = N0 -> g_ty vi = U32 ->
  g_size vst = 1 -> (forall l, l < N0 -> lane N0 st step l = Some 1) ->
  pieces uadd self st idx step c = GOk (st', rs) ->
  ok st' /\ keeps st st' /\ same_src st st' src vs /\ length rs = (c * N.to_nat ps)%nat /\
  forall j, (j < c * N.to_nat ps)%nat ->
    (exists d, gget st' (nth j rs O) = Some (mkG ty0 N0 d)) /\
    (still st src -> forall l x, l < N0 -> lane N0 st mask l = Some 1 -> lane N0 st idx l = Some ((x * q + a) mod 2 ^ 32) ->
       (x * q + a) * ps + N.of_nat j < z0 -> lane N0 st' (nth j rs O) l = lane z0 st src ((x * q + a) * ps + N.of_nat j)).
Proof.
  intros Hs BN Nps. induction c as [|c IH]; intros a st idx vs vi vm vst st' rs O Es Ei Em Est V Ht Hz HN Si Sm Ti Sst Lst; cbn [pieces].
  { injection 1 as <- <-. split; [assumption|]. split; [apply keeps_ext; try assumption; apply ext_refl|]. split; [apply same_src_refl|]. split; [reflexivity|intros; lia]. }
  destruct (self st idx) as [[st1 r1]| |] eqn:E1; cbn [gbind]; [|discriminate..].
  apply Hs with (vs := vs) (vi := vi) (vm := vm) in E1; try assumption. destruct E1 as (O1 & K1 & SS1 & L1 & C1).
  destruct (proj1 K1 _ _ Es) as (vs1 & Es1 & Ts1 & Ss1). destruct (proj1 K1 _ _ Ei) as (vi1 & Ei1 & Ti1 & Si1).
  destruct (proj1 K1 _ _ Em) as (vm1 & Em1 & Tm1 & Sm1). destruct (proj1 K1 _ _ Est) as (vt1 & Et1 & Tt1 & St1).
  destruct (uadd st1 idx step) as [[st2 idx2]| |] eqn:E2; cbn [gbind]; [|discriminate..].
  eapply Hadd in E2; [|exact O1|exact Ei1|exact Et1]. destruct E2 as (_ & (X2 & O2 & d2 & G2) & L2).
  assert (Zi : 1 <= g_size vi) by apply (O _ _ Ei). replace (N.max (g_size vi1) (g_size vt1)) with (g_size vi) in G2 by lia.
  destruct (pieces uadd self st2 idx2 step c) as [[st3 rest]| |] eqn:E3; cbn [gbind]; [|discriminate..]. injection 1 as <- <-.
  apply IH with (a := a + 1) (vs := vs1) (vi := mkG U32 (g_size vi) d2) (vm := vm1) (vst := vt1) in E3; try assumption; try congruence;
    try (eapply ext_get; eassumption); try (cbn [g_size]; congruence).
  2: { exact (same_src_value _ _ _ _ _ Es Es1 SS1 V). }
  2: { reflexivity. }
  2: { intros l Bl. rewrite (lane_ext' sem junk old st1 st2 N0 step _ l O1 O2 X2 Et1). rewrite (lane_small st st1 N0 step vst l); auto. }
  destruct E3 as (O3 & K3 & SS3 & L3 & C3).
  assert (K2 : keeps st1 st2) by now apply keeps_ext. assert (K13 : keeps st1 st3) by (eapply keeps_trans; [exact K2|exact K3]).
  assert (SS : same_src st st2 src vs).
  { eapply same_src_trans; [exact Es|exact Es1|assumption|assumption|exact SS1|now left]. }
  split; [assumption|]. split; [eapply keeps_trans; [exact K1|exact K13]|].
  split; [eapply same_src_trans; [exact Es|eapply ext_get; [exact X2|exact Es1]|assumption|assumption|exact SS|exact SS3]|].
  split; [rewrite app_length; lia|].
  intros j Bj. destruct (Nat.lt_ge_cases j (N.to_nat ps)) as [Hj|Hj].
  - rewrite app_nth1 by lia. destruct (C1 j Hj) as [(d1 & G1) C]. rewrite Ht, ?Hz in *. split.
    { destruct (proj1 K13 _ _ G1) as ([t z d] & G & T & Z). simpl in T, Z; subst. eauto. }
    intros St l x Bl Lm Lx Bx. rewrite (lane_small st1 st3 N0 _ _ l K13 G1) by (auto || assumption).
    assert (Zs : g_size vs < 2 ^ 32) by apply (O _ _ Es).
    assert (x * q + a < 2 ^ 32) by (assert ((x * q + a) * 1 <= (x * q + a) * ps) by (apply N.mul_le_mono_l; lia); lia).
    rewrite N.mod_small in Lx by assumption. rewrite (C St l (x * q + a) Bl Lm Lx) by (rewrite N.add_0_r; assumption). now rewrite N.add_0_r.
  - rewrite app_nth2 by lia. rewrite L1. destruct (C3 (j - N.to_nat ps)%nat ltac:(nia)) as [Sh C]. split; [exact Sh|].
    intros St l x Bl Lm Lx Bx.
    assert (Ej : (x * q + a) * ps + N.of_nat j = (x * q + (a + 1)) * ps + N.of_nat (j - N.to_nat ps)) by (rewrite Nat2N.inj_sub; nia).
    rewrite Ej in *. rewrite (C ltac:(apply (same_src_still st st2 src vs); assumption) l x Bl).
    + rewrite (lane_ext' sem junk old st1 st2 _ src _ _ O1 O2 X2 Es1). apply (lane_small st st1 z0 src vs); auto.
    + rewrite (lane_ext' sem junk old st1 st2 N0 mask _ l O1 O2 X2 Em1). now rewrite (lane_small st st1 N0 mask vm l).
    + rewrite (L2 N0 l ((x * q + a) mod 2 ^ 32) 1).
      * rewrite N.add_mod_idemp_l by discriminate. do 2 f_equal. lia.
      * rewrite (lane_ext' sem junk old st1 st2 N0 idx _ l O1 O2 X2 Ei1). now rewrite (lane_small st st1 N0 idx vi l).
      * rewrite (lane_ext' sem junk old st1 st2 N0 step _ l O1 O2 X2 Et1). rewrite (lane_small st st1 N0 step vst l); auto.
    + assumption.
Qed.

Hypothesis Hw : exists e, vector_width = 2 ^ e.
Lemma min_pow : exists e, N.min 8 vector_width = 2 ^ e /\ e < 4.
Proof.
  destruct Hw as [e ->]. destruct (N.lt_ge_cases e 4) as [B|B]; [exists e|exists 3].
  - split; [|assumption]. apply N.min_r. assert (2 ^ e <= 2 ^ 3) by (apply N.pow_le_mono_r; lia). exact H.
  - split; [|reflexivity]. apply N.min_l. assert (2 ^ 3 <= 2 ^ e) by (apply N.pow_le_mono_r; lia). exact H.
Qed.

Theorem packet_gather : forall fuel n st src idx mask vs vi vm st' rs, ok st ->
  gget st src = Some vs -> gget st idx = Some vi -> gget st mask = Some vm -> value vs -> g_ty vi = U32 -> n < 2 ^ 32 ->
  gather_packet sem junk old cp umul uadd ufma packet_ops vector_width unaligned fuel n st src idx mask = GOk (st', rs) ->
  packeted n 0 (N.to_nat n) st src idx mask vs (N.max (g_size vi) (g_size vm)) st' rs.
Proof.
  induction fuel as [|fuel IH]; intros n st src idx mask vs vi vm st' rs O Es Ei Em V Ti Bn; cbn [gather_packet].
  all: pose proof (gget_bound _ _ _ Es) as Bs; pose proof (gget_bound _ _ _ Ei) as Bi; pose proof (gget_bound _ _ _ Em) as Bm.
  all: destruct (Nat.eqb_spec idx 0) as [->|_]; [lia|]; destruct (Nat.eqb_spec src 0) as [->|_]; [lia|]; destruct (Nat.eqb_spec mask 0) as [->|_]; [lia|]; cbn [orb].
  all: destruct (glit32 st n) as [[st1 scale]| |] eqn:E1; cbn [gbind]; [|discriminate..].
  all: apply lit_ok in E1; [|assumption|assumption]; destruct E1 as ((X1 & O1 & d1 & G1) & L1).
  all: pose proof (ext_get _ _ _ _ X1 Es) as Es1; pose proof (ext_get _ _ _ _ X1 Ei) as Ei1; pose proof (ext_get _ _ _ _ X1 Em) as Em1.
  all: rewrite Es1, Ei1, Em1; destruct (gcheck vi vm) as [N0| |] eqn:Ck; cbn [gbind]; [|discriminate..].
  all: apply check_ok in Ck as (HN & Si & Sm); rewrite <- HN.
  all: assert (BN : 1 <= N0 < 2 ^ 32) by (pose proof (ok_size _ _ _ O Ei); pose proof (ok_size _ _ _ O Em); lia).
  (* it suffices to look at the state after the scale was created *)
  all: assert (Lift : packeted n 0 (N.to_nat n) st1 src idx mask vs N0 st' rs -> packeted n 0 (N.to_nat n) st src idx mask vs N0 st' rs)
    by (intros (A & B & C & D & F); split; [assumption|]; split; [eapply keeps_trans; [apply keeps_ext; [exact O|exact O1|exact X1]|exact B]|];
        split; [eapply same_src_trans; [exact Es|exact Es1|reflexivity|reflexivity|now left|exact C]|]; split; [assumption|];
        intros j Bj; destruct (F j Bj) as [F1 F2]; split; [exact F1|]; intros St l x Bl Lm Lx Bx;
        rewrite (F2 (still_ext st st1 src O X1 ltac:(lia) St) l x Bl);
        [eapply lane_ext'; eassumption
        |rewrite <- Lm; eapply lane_ext'; eassumption
        |rewrite <- Lx; eapply lane_ext'; eassumption|assumption]).
  all: destruct (N.eqb_spec n 1) as [|N1]; [discriminate|]; destruct (N.eqb_spec n 0) as [|Nz]; [discriminate|].
  all: destruct (negb (g_size vs mod n =? 0) && negb (g_size vs =? 1)) eqn:Md; [discriminate|].
  all: match goal with |- (if ?c then _ else _) = _ -> _ => destruct c eqn:Sep end.
  1, 3: intros E; apply Lift; eapply separate_ok in E;
    [exact E|lia|exact O1|exact Es1|exact Ei1|exact Em1|exact G1|assumption|assumption|assumption|assumption|reflexivity|intros; apply L1|lia].
  all: apply orb_false_iff in Sep as [Sep Lt]; apply orb_false_iff in Sep as [Sep _]; apply orb_false_iff in Sep as [Sep S1]; apply N.eqb_neq in S1.
  all: assert (Md' : g_size vs mod n = 0) by
    (apply andb_false_iff in Md as [Md|Md]; apply negb_false_iff, N.eqb_eq in Md; [assumption|congruence]).
  all: match goal with |- (if ?c then _ else _) = _ -> _ => destruct c eqn:Split end.
  1: discriminate.
  2: { (* splitting *)
    destruct min_pow as (e & Pe & Be). destruct (N.eqb_spec (N.min 8 vector_width) 0) as [|_]; [discriminate|].
    rewrite Pe. destruct (halve_pow 4 n e ltac:(lia)) as (e' & -> & Hl). rewrite land_pow in Hl.
    set (ps := 2 ^ e') in *. assert (Nps : ps <> 0) by (apply N.pow_nonzero; discriminate).
    assert (Hn : n = n / ps * ps). { apply N.mod_divide in Hl; [|assumption]. destruct Hl as [q ->]. now rewrite N.div_mul. }
    assert (Bq : n / ps < 2 ^ 32) by (assert (n / ps * 1 <= n / ps * ps) by (apply N.mul_le_mono_l; lia); lia).
    assert (Bps : ps < 2 ^ 32). { assert (0 < n / ps) by (destruct (n / ps); [lia|lia]). assert (1 * ps <= n / ps * ps) by (apply N.mul_le_mono_r; lia). lia. }
    destruct (glit32 st1 1) as [[st2 step]| |] eqn:E2; cbn [gbind]; [|discriminate..].
    apply lit_ok in E2; [|assumption|lia]. destruct E2 as ((X2 & O2 & d2 & G2) & L2).
    destruct (glit32 st2 (n / ps)) as [[st3 sc2]| |] eqn:E3; cbn [gbind]; [|discriminate..].
    apply lit_ok in E3; [|assumption|assumption]. destruct E3 as ((X3 & O3 & d3 & G3) & L3). pose proof (ext_trans _ _ _ X2 X3) as X13.
    pose proof (ext_get _ _ _ _ X13 Ei1) as Ei3.
    destruct (umul st3 idx sc2) as [[st4 idx2]| |] eqn:E4; cbn [gbind]; [|discriminate..].
    eapply Hmul in E4; [|exact O3|exact Ei3|exact G3]. destruct E4 as (_ & (X4 & O4 & d4 & G4) & L4). cbn [g_size] in G4.
    assert (Zi : 1 <= g_size vi) by apply (O _ _ Ei). replace (N.max (g_size vi) 1) with (g_size vi) in G4 by lia.
    pose proof (ext_trans _ _ _ X13 X4) as X14. pose proof (ext_get _ _ _ _ X14 Es1) as Es4. pose proof (ext_get _ _ _ _ X14 Em1) as Em4.
    pose proof (ext_get _ _ _ _ (ext_trans _ _ _ X3 X4) G2) as G24.
    intros E. eapply (pieces_ok _ ps (n / ps) src mask N0 step (g_ty vs) (g_size vs)) with (a := 0) in E;
      [|intros st0 idx0 vs0 vi0 vm0 st0' rs0 A1 A2 A3 A4 A5 A6 A7 A8 A9 A10; rewrite A6; eapply IH; eassumption
       |lia|assumption|exact O4|exact Es4|exact G4|exact Em4|exact G24|assumption|reflexivity|reflexivity|exact HN|exact Si|exact Sm|reflexivity|reflexivity|].
    2: { intros l _. rewrite (lane_ext' sem junk old st2 st4 N0 step _ l O2 O4 (ext_trans _ _ _ X3 X4) G2). apply L2. }
    destruct E as (O5 & K5 & SS5 & Lr & C5). replace (N.to_nat (n / ps) * N.to_nat ps)%nat with (N.to_nat n) in * by lia.
    apply Lift. split; [assumption|]. split; [eapply keeps_trans; [apply keeps_ext; [exact O1|exact O4|exact X14]|exact K5]|].
    split; [eapply same_src_trans; [exact Es1|exact Es4|reflexivity|reflexivity|now left|exact SS5]|]. split; [exact Lr|].
    intros j Bj. destruct (C5 j Bj) as [Sh C]. split; [exact Sh|]. intros St l x Bl Lm Lx Bx. rewrite N.add_0_r in *.
    assert (Ex : x * n = (x * (n / ps) + 0) * ps) by (rewrite N.add_0_r, <- N.mul_assoc, <- Hn; reflexivity).
    rewrite Ex in *. rewrite (C ltac:(apply (still_ext st1 st4 src O1 X14); [apply gget_bound in Es1; lia|assumption]) l x Bl).
    - eapply lane_ext'; eassumption.
    - rewrite <- Lm; eapply lane_ext'; eassumption.
    - rewrite (L4 N0 l x (n / ps)); [now rewrite N.add_0_r| |].
      + rewrite <- Lx; eapply lane_ext'; eassumption.
      + rewrite (lane_ext' sem junk old st3 st4 N0 sc2 _ l O3 O4 X4 G3). apply L3.
    - assumption. }
  all: destruct (geval sem junk old st1 src) as [st2| |] eqn:Ev; cbn [gbind]; [|discriminate..].
  all: destruct (mask_apply cp st2 mask N0) as [[st3 m2]| |] eqn:MA; cbn [gbind]; [|discriminate..].
  all: destruct (gpush st3 (mkG U64 1 (GPtr src))) as [[st4 p]| |] eqn:P; cbn [gbind]; [|discriminate..].
  all: destruct (gather_index cp st4 src idx) as [[st5 i2]| |] eqn:GI; cbn [gbind]; [|discriminate..].
  all: destruct (gpush st5 (mkG (g_ty vs) N0 (GPacket n p i2 m2))) as [[st6 op]| |] eqn:P6; cbn [gbind]; [|discriminate..].
  all: intros Ex; apply Lift; eapply direct_ok; try eassumption; rewrite Ti; reflexivity.
Qed.

(** One level of splitting is enough *)
Lemma pieces_congr (f g : store -> nat -> gout (store * list nat)) step : (forall st idx, f st idx = g st idx) ->
  forall c st idx, pieces uadd f st idx step c = pieces uadd g st idx step c.
Proof.
  intros H. induction c as [|c IH]; intros st idx; cbn [pieces]; [reflexivity|]. rewrite H. destruct (g st idx) as [[st1 rs]| |]; cbn [gbind]; try reflexivity.
  destruct (uadd st1 idx step) as [[st2 i2]| |]; cbn [gbind]; try reflexivity. now rewrite IH.
Qed.
Lemma nosplit fuel n e st src idx mask : n = 2 ^ e -> n <= N.min 8 vector_width ->
  gather_packet sem junk old cp umul uadd ufma packet_ops vector_width unaligned fuel n st src idx mask =
  gather_packet sem junk old cp umul uadd ufma packet_ops vector_width unaligned 0 n st src idx mask.
Proof.
  intros Hn B. destruct fuel as [|fuel]; [reflexivity|]. cbn [gather_packet].
  assert (E : negb (N.land n (n - 1) =? 0) || (N.min 8 vector_width <? n) = false).
  { apply orb_false_iff; split.
    - rewrite Hn, land_pow, N.mod_same; [reflexivity|]. apply N.pow_nonzero; discriminate.
    - apply N.ltb_ge; assumption. }
  rewrite E. reflexivity.
Qed.
Lemma halve_le : forall fuel n ps, halve fuel n ps <= ps.
Proof.
  induction fuel as [|fuel IH]; intros n ps; cbn [halve]; [lia|]. destruct (_ =? 0); [lia|]. specialize (IH n (ps / 2)).
  assert (ps / 2 <= ps); [|lia]. destruct (N.eq_dec ps 0) as [->|]; [reflexivity|]. apply N.lt_le_incl, N.div_lt; lia.
Qed.
Theorem packet_fuel fuel fuel2 n st src idx mask :
  gather_packet sem junk old cp umul uadd ufma packet_ops vector_width unaligned (S fuel) n st src idx mask =
  gather_packet sem junk old cp umul uadd ufma packet_ops vector_width unaligned (S fuel2) n st src idx mask.
Proof.
  cbn [gather_packet]. destruct min_pow as (e & Pe & Be). destruct (halve_pow 4 n e ltac:(lia)) as (e' & He & _). rewrite <- Pe in He.
  pose proof (halve_le 4 n (N.min 8 vector_width)) as L.
  repeat match goal with
  | |- ?x = ?x => reflexivity
  | |- gbind ?a _ = gbind ?a _ => destruct a; cbn [gbind]; try reflexivity
  | |- (let (_, _) := ?x in _) = _ => destruct x
  | |- (if ?c then _ else _) = (if ?c then _ else _) => destruct c; try reflexivity
  | |- (match ?x with Some _ => _ | None => _ end) = _ => destruct x; try reflexivity
  end.
  all: apply pieces_congr; intros; now rewrite (nosplit fuel _ _ _ _ _ _ He L), (nosplit fuel2 _ _ _ _ _ _ He L).
Qed.
End Packet.
