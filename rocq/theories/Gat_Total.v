(** Building a gather does not fault. *)
From Verif Require Import Base Op_Model Gat_Model Gat_Spec Gat_Proofs Gat_Reindex Gat_Gather.
Local Open Scope N_scope.

Section Total.
Context {K : Type}.
Variable sem : K -> list N -> option N.
Variable junk : N -> N.
Variable old : nat -> N -> N.
Variable cp : bool.
Notation gvar := (gvar K).
Notation store := (list gvar).
Notation lane := (lane sem junk old).
Implicit Types (st : store) (v : gvar).

Lemma resize_total st h v n : gget st h = Some v -> gresize st h n <> GFault.
Proof. intros E. unfold gresize. rewrite E. destruct (_ =? _); [discriminate|]. destruct (_ && _); [discriminate|]. destruct (g_desc v); discriminate. Qed.
Lemma check_total v w : gcheck v w <> GFault.
Proof. unfold gcheck. destruct (_ && _); discriminate. Qed.
Lemma and_total st a m va vm : gget st a = Some va -> gget st m = Some vm -> gand cp st a m <> GFault.
Proof.
  intros Ea Em. unfold gand. rewrite Ea, Em. pose proof (check_total va vm) as C. destruct (gcheck va vm) as [n| |]; cbn [gbind]; [|discriminate|congruence].
  repeat match goal with |- (if ?c then _ else _) <> _ => destruct c end; try discriminate; eapply resize_total; eassumption.
Qed.
Lemma apply_total st m vm n : gget st m = Some vm -> mask_apply cp st m n <> GFault.
Proof.
  intros E. unfold mask_apply. rewrite E. destruct (negb _); [discriminate|]. unfold mask_default. cbn [gbind gpush].
  eapply and_total; [apply gget_new|]. eapply ext_get; [eexists; reflexivity|exact E].
Qed.
Lemma cast_total st a va t : gget st a = Some va -> gcast cp st a t <> GFault.
Proof. intros E. unfold gcast. rewrite E. destruct (ty_eqb _ _); [discriminate|]. destruct (g_desc va); try discriminate. destruct cp; discriminate. Qed.

Section Reindex.
Variables (st0 : store) (newi m2 : nat) (vi vm2 : gvar) (n k : N).
Hypothesis O0 : ok st0.
Hypothesis Gi : gget st0 newi = Some vi.
Hypothesis Gm : gget st0 m2 = Some vm2.
Hypothesis Ti : g_ty vi = U32.
Hypothesis Si : g_size vi = 1 \/ g_size vi = n.
Hypothesis Sm : g_size vm2 = n.
Hypothesis Bn : 1 <= n < 2 ^ 32.
Hypothesis Bk : k < 2 ^ 32.
Notation inv := (inv sem junk old st0 newi m2 n k).
Notation fine := (fine sem junk old st0 newi m2 n k).
Definition total (self : store -> memo -> nat -> gout (store * memo * option nat)) (h : nat) : Prop :=
  forall st M, ok st -> ext st0 st -> inv st M -> self st M h <> GFault.

Lemma deps_total self g : forall hs pos st M, (forall d, In d hs -> fine self d /\ total self d) ->
  ok st -> ext st0 st -> inv st M -> reindex_deps cp m2 self g pos st M hs <> GFault.
Proof.
  induction hs as [|h hs IH]; intros pos st M F O X I; cbn [reindex_deps]; [discriminate|].
  destruct (F h (or_introl eq_refl)) as [Fh Th]. specialize (Th st M O X I).
  destruct (self st M h) as [[[st1 M1] r]| |] eqn:E1; cbn [gbind]; [|discriminate|congruence].
  destruct (Fh _ _ _ _ _ O X I E1) as (X1 & O1 & I1 & R1). pose proof (ext_trans _ _ _ X X1) as X01.
  destruct r as [d|]; [|discriminate]. specialize (R1 d eq_refl). pose proof R1 as (va & vb & _ & Eb & _ & Sb & _). pose proof (ext_get _ _ _ _ X01 Gm) as Gm1.
  assert (G : exists st2 d2, (if g && Nat.eqb pos 2 then gand cp st1 d m2 else GOk (st1, d)) = GOk (st2, d2) /\ ok st2 /\ ext st1 st2 \/
     (if g && Nat.eqb pos 2 then gand cp st1 d m2 else GOk (st1, d)) = GRaise).
  { destruct (g && Nat.eqb pos 2).
    - pose proof (and_total st1 d m2 vb vm2 Eb Gm1) as T. destruct (gand cp st1 d m2) as [[st2 d2]| |] eqn:A; [|exists st, 0%nat; now right|congruence].
      exists st2, d2. left. split; [reflexivity|]. eapply (and_ok sem junk old) in A; [|exact O1|exact Eb|exact Gm1]. destruct A as (_ & (XA & OA & _) & _). auto.
    - exists st1, d. left. split; [reflexivity|]. split; [assumption|apply ext_refl]. }
  destruct G as (st2 & d2 & [(G & O2 & X2)|G]); rewrite G; cbn [gbind]; [|discriminate].
  assert (T : reindex_deps cp m2 self g (S pos) st2 M1 hs <> GFault).
  { apply IH; try assumption; [intros; apply F; now right|exact (ext_trans _ _ _ X01 X2)|]. exact (inv_ext sem junk old st0 newi m2 n k st1 st2 M1 O1 O2 X2 I1). }
  destruct (reindex_deps _ _ _ _ _ _ _ hs) as [[[st3 M3] rs]| |]; cbn [gbind]; [discriminate|discriminate|congruence].
Qed.

Lemma reindex_total : forall fuel h, (0 < h < fuel)%nat -> (h <= length st0)%nat -> total (reindex cp newi m2 n fuel) h.
Proof.
  induction fuel as [|fuel IH]; intros h B Bh st M O X I; [lia|]. cbn [reindex].
  destruct (mfind M h); [discriminate|]. destruct (gget st h) as [v|] eqn:E.
  2: { destruct (gget st0 h) as [v|] eqn:E0; [rewrite (ext_get _ _ _ _ X E0) in E; discriminate|].
       exfalso. destruct h as [|h]; [lia|]. simpl in E0. apply nth_error_None in E0. lia. }
  destruct (Nat.ltb _ _); [discriminate|].
  assert (E0 : gget st0 h = Some v) by (destruct X as [x ->]; rewrite gget_app in E; assumption).
  destruct (O0 _ _ E0) as (_ & Dp & _).
  assert (D : forall g, reindex_deps cp m2 (reindex cp newi m2 n fuel) g 0 st M (deps_of (g_desc v)) <> GFault).
  { intros g. apply deps_total; try assumption. intros d Id. rewrite Forall_forall in Dp. destruct (Dp d Id) as (Bd & _).
    split; [eapply reindex_fine; try eassumption; lia|apply IH; lia]. }
  assert (Fin : forall (st : store) (M : memo) (r : bool) d, (let* (st, b) := (if r then gpush st (mkG (g_ty v) n d) else GOk (st, h)) in GOk (st, (h, b) :: M, Some b)) <> GFault)
    by (intros ? ? [|] d; discriminate).
  destruct (g_desc v) eqn:Ed; try discriminate; try apply Fin; try (destruct (_ && _); discriminate).
  all: match goal with |- context [reindex_deps _ _ _ ?g _ _ _ _] => specialize (D g) end;
    destruct (reindex_deps _ _ _ _ _ _ _ _) as [[[st1 M1] [ds|]]| |]; cbn [gbind]; try discriminate; try congruence; apply Fin.
Qed.
End Reindex.

Lemma collect_total (f : N -> option N) : forall c l, (forall x, l <= x < l + N.of_nat c -> f x <> None) -> collect f l c <> None.
Proof.
  induction c as [|c IH]; intros l H; cbn [collect]; [discriminate|]. pose proof (H l ltac:(lia)) as H0. destruct (f l); [cbn [bind]|congruence].
  specialize (IH (l + 1) (fun x B => H x ltac:(lia))). destruct (collect f (l + 1) c); [discriminate|congruence].
Qed.
Lemma eval_total st h v : gget st h = Some v -> (forall l, l < g_size v -> lane (g_size v) st h l <> None) -> geval sem junk old st h <> GFault.
Proof.
  intros E H. unfold geval. rewrite E. pose proof (collect_total (lane (g_size v) st h) (N.to_nat (g_size v)) 0 ltac:(intros; apply H; lia)) as C.
  destruct (collect _ _ _); [destruct (g_desc v); discriminate|congruence].
Qed.

Theorem gather_total st src idx mask vs vi vm : ok st ->
  gget st src = Some vs -> gget st idx = Some vi -> gget st mask = Some vm -> value vs -> value vi -> is_int (g_ty vi) = true ->
  (forall l, l < g_size vs -> lane (g_size vs) st src l <> None) ->
  gather sem junk old cp st src idx mask <> GFault.
Proof.
  intros O Es Ei Em V Vi Int Df. unfold gather.
  pose proof (gget_bound _ _ _ Es) as Bs. pose proof (gget_bound _ _ _ Ei) as Bi. pose proof (gget_bound _ _ _ Em) as Bm.
  destruct (Nat.eqb_spec idx 0) as [->|_]; [lia|]. destruct (Nat.eqb_spec src 0) as [->|_]; [lia|]. destruct (Nat.eqb_spec mask 0) as [->|_]; [lia|].
  cbn [orb]. rewrite Es, Ei, Em. pose proof (check_total vi vm) as Ct. destruct (gcheck vi vm) as [n| |] eqn:Ck; cbn [gbind]; [|discriminate|congruence].
  apply check_ok in Ck as (Nn & Si & Sm).
  pose proof (ok_size _ _ _ O Es) as Zs. pose proof (ok_size _ _ _ O Ei) as Zi. pose proof (ok_size _ _ _ O Em) as Zm.
  assert (Bn : 1 <= n < 2 ^ 32) by lia.
  destruct (g_is vm 0); [discriminate|].
  destruct (N.eqb_spec (g_size vs) 1) as [Ss|Ss].
  { pose proof (resize_total st src vs n Es) as T. destruct (gresize st src n) as [[st1 t]| |] eqn:R; cbn [gbind]; [|discriminate|congruence].
    apply (resize_ok sem junk old) with (v := vs) in R; try assumption. destruct R as ((X1 & O1 & d1 & G1) & _).
    eapply and_total; [exact G1|eapply ext_get; eassumption]. }
  destruct (match g_desc vi with GCtr => g_size vi =? g_size vs | _ => false end); [eapply and_total; eassumption|].
  pose proof (cast_total st idx vi U32 Ei) as T. destruct (gcast cp st idx U32) as [[st1 i2]| |] eqn:C; cbn [gbind]; [|discriminate|congruence].
  apply (cast_index sem junk old) with (vi := vi) (n := n) in C; try assumption; [|now left]. destruct C as ((X1 & O1 & d1 & G1) & _ & _).
  pose proof (apply_total st1 mask vm n ltac:(eapply ext_get; eassumption)) as T2.
  destruct (mask_apply cp st1 mask n) as [[st2 m2]| |] eqn:MA; cbn [gbind]; [|discriminate|congruence].
  apply (apply_ok sem junk old) with (vm := vm) in MA; try assumption; [|eapply ext_get; eassumption].
  destruct MA as (Bvm & (X2 & O2 & d2 & G2) & _).
  pose proof (ext_trans _ _ _ X1 X2) as X12. pose proof (ext_get _ _ _ _ X2 G1) as G1'. pose proof (ext_get _ _ _ _ X12 Es) as Es2.
  assert (L2 : (src <= length st2)%nat) by (apply ext_len in X12; lia).
  pose proof (reindex_total st2 i2 m2 _ _ n (g_size vs) O2 G1' G2 eq_refl Si eq_refl Bn (proj2 Zs) (S src) src
                ltac:(lia) L2 st2 [] O2 (ext_refl _) ltac:(intros a b H; discriminate H)) as T3.
  destruct (reindex cp i2 m2 n (S src) st2 [] src) as [[[st3 M] ro]| |] eqn:R; cbn [gbind]; [|discriminate|congruence].
  pose proof (reindex_fine sem junk old cp st2 i2 m2 _ _ n (g_size vs) O2 G1' G2 eq_refl Si eq_refl Bn (proj2 Zs) (S src) src
                L2 st2 [] st3 M ro O2 (ext_refl _) ltac:(intros a b H; discriminate H) R) as (X3 & O3 & _ & Rl).
  pose proof (ext_trans _ _ _ X12 X3) as X13.
  destruct ro as [r0|].
  { specialize (Rl r0 eq_refl). destruct Rl as (va & vb & _ & Eb & _ & Sb & _).
    pose proof (resize_total st3 r0 vb n Eb) as T4. destruct (gresize st3 r0 n) as [[st4 t]| |] eqn:Rz; cbn [gbind]; [|discriminate|congruence].
    apply (resize_ok sem junk old) with (v := vb) in Rz; try assumption. destruct Rz as ((X4 & O4 & d4 & G4) & _).
    eapply and_total; [exact G4|]. eapply ext_get; [exact (ext_trans _ _ _ X3 X4)|exact G2]. }
  pose proof (ext_get _ _ _ _ X13 Es) as Es3.
  assert (Df3 : forall l, l < g_size vs -> lane (g_size vs) st3 src l <> None).
  { intros l B. rewrite (lane_ext' sem junk old st st3 (g_size vs) src vs l O O3 X13 Es). now apply Df. }
  pose proof (eval_total st3 src vs Es3 Df3) as T5. destruct (geval sem junk old st3 src) as [st4| |] eqn:Ev; cbn [gbind]; [|discriminate|congruence].
  apply eval_ok with (v := vs) in Ev; try assumption. destruct Ev as (O4 & K4 & Oth & d & Gd & Cd).
  pose proof (keeps_trans _ _ _ _ _ _ (keeps_ext _ _ _ _ _ O O3 X13) K4) as Kp4.
  destruct ((n =? 1) && g_lit vi && g_lit vm) eqn:Mc.
  { rewrite Gd. apply andb_true_iff in Mc as [Mc _]. apply andb_true_iff in Mc as [_ Mc]. unfold g_lit in Mc. unfold value in Vi.
    destruct (g_desc vi); try discriminate; try contradiction. destruct (_ <=? _); discriminate. }
  destruct (proj1 Kp4 _ _ Em) as (vm' & Em4 & Tm & Sm4). destruct (proj1 Kp4 _ _ Ei) as (vi' & Ei4 & Ti4 & Si4).
  pose proof (apply_total st4 mask vm' n Em4) as T6. destruct (mask_apply cp st4 mask n) as [[st5 m3]| |] eqn:MB; cbn [gbind]; [|discriminate|congruence].
  apply (apply_ok sem junk old) with (vm := vm') in MB; try assumption; [|now rewrite Sm4]. destruct MB as (_ & (X5 & O5 & _) & _).
  cbn [gbind gpush]. unfold gather_index.
  assert (X6 : ext st4 (st5 ++ [mkG U64 1 (GPtr src)])) by (eapply ext_trans; [exact X5|eexists; reflexivity]).
  rewrite (ext_get _ _ _ _ X6 Gd), (ext_get _ _ _ _ X6 Ei4). destruct (negb _); [discriminate|].
  cbn [g_size].
  pose proof (cast_total (st5 ++ [mkG U64 1 (GPtr src)]) idx vi' (if 2147483647 <? g_size vs then U64 else U32) (ext_get _ _ _ _ X6 Ei4)) as T7.
  destruct (gcast cp _ idx _) as [[st7 i7]| |]; cbn [gbind]; [discriminate|discriminate|congruence].
Qed.
End Total.
