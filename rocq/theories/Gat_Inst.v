(** A concrete family of lane-wise operations, and unsigned arithmetic built from it. *)
From Verif Require Import Base Op_Model Gat_Model Gat_Spec Gat_Proofs Gat_Gather Gat_Packet.
Local Open Scope N_scope.

Inductive ek := EMul | EAdd | EFma | ESub | EDiv.
Definition esem (k : ek) (xs : list N) : option N :=
  match k, xs with
  | EMul, [x; y] => Some (x * y mod 2 ^ 32)
  | EAdd, [x; y] => Some ((x + y) mod 2 ^ 32)
  | EFma, [x; y; z] => Some ((x * y + z) mod 2 ^ 32)
  | ESub, [x; y] => Some ((x + (2 ^ 32 - y mod 2 ^ 32)) mod 2 ^ 32)
  | EDiv, [x; y] => if y =? 0 then None else Some (x / y)
  | _, _ => None
  end.
Definition u32v (v : gvar ek) : bool := ty_eqb (g_ty v) U32.
Definition e2 (k : ek) (st : list (gvar ek)) (a b : nat) : gout (list (gvar ek) * nat) :=
  match gget st a, gget st b with
  | Some va, Some vb => if u32v va && u32v vb then let* n := gcheck va vb in gpush st (mkG U32 n (GOp k [a; b])) else GRaise
  | _, _ => GFault
  end.
Definition e3 (k : ek) (st : list (gvar ek)) (a b c : nat) : gout (list (gvar ek) * nat) :=
  match gget st a, gget st b, gget st c with
  | Some va, Some vb, Some vc =>
      if u32v va && u32v vb && u32v vc then
        let* n := gcheck va vb in
        let* n := gcheck (mkG U32 n (GLit 0)) vc in
        gpush st (mkG U32 n (GOp k [a; b; c])) else GRaise
  | _, _, _ => GFault
  end.

Section Inst.
Variable junk : N -> N.
Variable old : nat -> N -> N.
Notation lane := (lane esem junk old).
Lemma e2_arith k o : (forall x y, esem k [x; y] = Some (o x y mod 2 ^ 32)) -> arith2 esem junk old (e2 k) o.
Proof.
  intros H st a b va vb st' r O Ea Eb. unfold e2. rewrite Ea, Eb. destruct (u32v va) eqn:Ta; [|discriminate]. destruct (u32v vb) eqn:Tb; [|discriminate]. cbn [andb].
  destruct (gcheck va vb) as [n| |] eqn:Ck; cbn [gbind]; [|discriminate..]. apply check_ok in Ck as (Hn & Sa & Sb). intros P.
  pose proof (ok_size _ _ _ O Ea) as Za. pose proof (ok_size _ _ _ O Eb) as Zb.
  apply push_built in P; [|assumption|].
  2: { split; [cbn [g_size]; lia|]. split; [|exact I]. cbn [g_desc deps_of g_size].
       constructor; [eapply dep_ok_new; eassumption|]. constructor; [eapply dep_ok_new; eassumption|constructor]. }
  destruct P as ((X & O' & D) & -> & G). split; [now apply ty_eqb_eq|]. split; [rewrite <- Hn; split; [exact X|split; [exact O'|exact D]]|].
  intros N l x y Lx Ly. rewrite (lane_eq _ _ _ st' N _ _ l O' G). unfold run; cbn [g_desc args]. rewrite Lx, Ly. cbn [bind]. apply H.
Qed.
Lemma e3_arith : arith3 esem junk old (e3 EFma) (fun x y z => x * y + z).
Proof.
  intros st a b c va vb vc st' r O Ea Eb Ec. unfold e3. rewrite Ea, Eb, Ec.
  destruct (u32v va) eqn:Ta; [|discriminate]. destruct (u32v vb) eqn:Tb; [|discriminate]. destruct (u32v vc) eqn:Tc; [|discriminate]. cbn [andb].
  destruct (gcheck va vb) as [n| |] eqn:Ck; cbn [gbind]; [|discriminate..]. apply check_ok in Ck as (Hn & Sa & Sb).
  destruct (gcheck _ vc) as [m| |] eqn:Ck; cbn [gbind]; [|discriminate..]. apply check_ok in Ck as (Hm & Sn & Sc). cbn [g_size] in Hm, Sn. intros P.
  pose proof (ok_size _ _ _ O Ea) as Za. pose proof (ok_size _ _ _ O Eb) as Zb. pose proof (ok_size _ _ _ O Ec) as Zc.
  apply push_built in P; [|assumption|].
  2: { split; [cbn [g_size]; lia|]. split; [|exact I]. cbn [g_desc deps_of g_size].
       constructor; [eapply dep_ok_new; [eassumption|]; lia|]. constructor; [eapply dep_ok_new; [eassumption|]; lia|].
       constructor; [eapply dep_ok_new; eassumption|constructor]. }
  destruct P as ((X & O' & D) & -> & G). split; [now apply ty_eqb_eq|].
  split; [replace (N.max _ _) with m by lia; split; [exact X|split; [exact O'|exact D]]|].
  intros N l x y z Lx Ly Lz. rewrite (lane_eq _ _ _ st' N _ _ l O' G). unfold run; cbn [g_desc args]. rewrite Lx, Ly, Lz. reflexivity.
Qed.
End Inst.

(** Deciding that a store is well formed *)
Definition size_okb (n m : N) : bool := (n =? 1) || (n =? m).
Definition depb {K} (st : list (gvar K)) (h : nat) (n : N) (d : nat) : bool :=
  Nat.ltb 0 d && Nat.ltb d h && match gget st d with Some v => size_okb (g_size v) n | None => false end.
Definition pointsb {K} (st : list (gvar K)) (p : nat) : bool := match gget st p with Some (mkG _ _ (GPtr _)) => true | _ => false end.
Definition goodb {K} (st : list (gvar K)) (h : nat) (v : gvar K) : bool :=
  (1 <=? g_size v) && (g_size v <? 2 ^ 32) && forallb (depb st h (g_size v)) (deps_of (g_desc v)) &&
  match g_desc v with
  | GLit x => x <? 2 ^ width (g_ty v)
  | GCtr => negb (g_size v =? 1) && ty_eqb (g_ty v) U32
  | GDef => is_bool (g_ty v)
  | GMem d => Nat.eqb (length d) (N.to_nat (g_size v))
  | GPtr s => (g_size v =? 1) && ty_eqb (g_ty v) U64 && Nat.ltb 0 s && Nat.ltb s h &&
      match gget st s with Some (mkG _ _ (GMem _)) => true | _ => false end
  | GGather p _ _ | GPacket _ p _ _ | GInc p _ _ => pointsb st p
  | GExtract _ a => match gget st a with Some (mkG _ _ (GPacket _ _ _ _)) => true | _ => false end
  | GSpecial _ => false
  | _ => true
  end.
Fixpoint okb_from {K} (st : list (gvar K)) (h : nat) (vs : list (gvar K)) : bool :=
  match vs with [] => true | v :: vs => goodb st h v && okb_from st (S h) vs end.
Definition okb {K} (st : list (gvar K)) : bool := okb_from st 1 st.

Lemma pointsb_ok {K} (st : list (gvar K)) p : pointsb st p = true -> points st p.
Proof. unfold pointsb, points. destruct (gget st p) as [[t n [ ]]|]; try discriminate. eauto. Qed.
Lemma goodb_ok {K} (st : list (gvar K)) h v : goodb st h v = true -> good st h v.
Proof.
  unfold goodb. intros H. apply andb_true_iff in H as [H H4]. apply andb_true_iff in H as [H H3]. apply andb_true_iff in H as [H1 H2].
  apply N.leb_le in H1. apply N.ltb_lt in H2. split; [split; assumption|]. split.
  - apply Forall_forall. intros d I. rewrite forallb_forall in H3. specialize (H3 d I). unfold depb in H3.
    apply andb_true_iff in H3 as [H3 E]. apply andb_true_iff in H3 as [B1 B2]. apply Nat.ltb_lt in B1, B2. split; [lia|].
    destruct (gget st d) as [w|]; [|discriminate]. exists w. split; [reflexivity|]. unfold size_okb in E. apply orb_true_iff in E as [E|E]; apply N.eqb_eq in E; auto.
  - destruct (g_desc v); try exact I; try (now apply pointsb_ok).
    + now apply N.ltb_lt in H4.
    + apply andb_true_iff in H4 as [A B]. apply negb_true_iff, N.eqb_neq in A. now apply ty_eqb_eq in B.
    + destruct (g_ty v); try discriminate; reflexivity.
    + now apply Nat.eqb_eq in H4.
    + apply andb_true_iff in H4 as [H4 E]. apply andb_true_iff in H4 as [H4 B2]. apply andb_true_iff in H4 as [H4 B1]. apply andb_true_iff in H4 as [A B].
      apply N.eqb_eq in A. apply ty_eqb_eq in B. apply Nat.ltb_lt in B1, B2. split; [split; assumption|]. split; [lia|].
      destruct (gget st src) as [[t n [ ]]|]; try discriminate. eauto.
    + destruct (gget st a) as [[t n [ ]]|]; try discriminate. repeat eexists.
    + discriminate.
Qed.
Lemma okb_ok {K} (st : list (gvar K)) : okb st = true -> ok st.
Proof.
  assert (H : forall vs h, okb_from st h vs = true -> forall i v, nth_error vs i = Some v -> good st (h + i) v).
  { induction vs as [|w vs IH]; intros h E i v N; [destruct i; discriminate|]. cbn [okb_from] in E. apply andb_true_iff in E as [E1 E2].
    destruct i as [|i]; simpl in N; [injection N as <-; rewrite Nat.add_0_r; now apply goodb_ok|].
    rewrite <- plus_n_Sm. apply (IH (S h) E2 i v N). }
  intros E [|i] v G; [discriminate|]. apply (H st 1%nat E i v G).
Qed.
