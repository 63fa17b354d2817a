(** Lemmas about execution and the builders that gathers use. *)
From Verif Require Import Base Op_Model Gat_Model Gat_Spec.
Local Open Scope N_scope.

Lemma bind_some {A B} (x : option A) (f : A -> option B) y : bind x f = Some y -> exists a, x = Some a /\ f a = Some y.
Proof. destruct x; [eauto|discriminate]. Qed.

Section Proofs.
Context {K : Type}.
Notation gvar := (gvar K).
Notation store := (list gvar).
Implicit Types (st : store) (v : gvar).

(** ** Stores *)

Lemma gget_bound (st : store) h v : gget st h = Some v -> (0 < h <= length st)%nat.
Proof. destruct h; [discriminate|]; simpl; intros E; assert (h < length st)%nat by (apply nth_error_Some; congruence); lia. Qed.
Lemma gget_some (st : store) h : (0 < h <= length st)%nat -> exists v, gget st h = Some v.
Proof. destruct h; [lia|]; simpl; intros B; destruct (nth_error st h) eqn:E; eauto. apply nth_error_None in E; lia. Qed.
Lemma gget_app (st x : store) h : (h <= length st)%nat -> gget (st ++ x) h = gget st h.
Proof. destruct h; [reflexivity|]; simpl; intros; apply nth_error_app1; lia. Qed.
Lemma gget_new (st : store) v : gget (st ++ [v]) (S (length st)) = Some v.
Proof. simpl; rewrite nth_error_app2 by lia; now rewrite Nat.sub_diag. Qed.

Definition ext (st st' : store) : Prop := exists x, st' = st ++ x.
Lemma ext_refl st : ext st st.
Proof. exists []; now rewrite app_nil_r. Qed.
Lemma ext_trans a b c : ext a b -> ext b c -> ext a c.
Proof. intros [x ->] [y ->]; exists (x ++ y); now rewrite app_assoc. Qed.
Lemma ext_push st v : ext st (st ++ [v]).
Proof. now exists [v]. Qed.
Lemma ext_get st st' h v : ext st st' -> gget st h = Some v -> gget st' h = Some v.
Proof. intros [x ->] E; rewrite gget_app; [assumption|apply gget_bound in E; lia]. Qed.
Lemma ext_len st st' : ext st st' -> (length st <= length st')%nat.
Proof. intros [x ->]; rewrite app_length; lia. Qed.

Lemma dep_ok_ext st st' h n d : ext st st' -> dep_ok st h n d -> dep_ok st' h n d.
Proof. intros X [B (v & E & S1)]; split; [assumption|]; exists v; split; [eapply ext_get; eassumption|assumption]. Qed.
Lemma points_ext st st' p : ext st st' -> points st p -> points st' p.
Proof. intros X (t & n & s & E); exists t, n, s; eapply ext_get; eassumption. Qed.
Lemma good_ext st st' h v : ext st st' -> good st h v -> good st' h v.
Proof.
  intros X (A & B & C); split; [assumption|split].
  - eapply Forall_impl; [|exact B]; intros d; now apply dep_ok_ext.
  - destruct (g_desc v); try assumption; try (eapply points_ext; eassumption).
    + destruct C as (C1 & C2 & t & n & d & C3); split; [assumption|split; [assumption|]]; exists t, n, d; eapply ext_get; eassumption.
    + destruct C as (t & n & c & p & i & m & C); exists t, n, c, p, i, m; eapply ext_get; eassumption.
Qed.
Lemma ok_push st v : ok st -> good st (S (length st)) v -> ok (st ++ [v]).
Proof.
  intros O G h w E. destruct (Nat.le_gt_cases h (length st)) as [L|L].
  - rewrite gget_app in E by assumption. eapply good_ext; [apply ext_push|now apply O].
  - assert (h = S (length st)) as ->. { apply gget_bound in E; rewrite app_length in E; simpl in E; lia. }
    rewrite gget_new in E; injection E as <-. eapply good_ext; [apply ext_push|assumption].
Qed.

Lemma args_ext (r r' : nat -> N -> option N) hs l : (forall d, In d hs -> r d l = r' d l) -> args r hs l = args r' hs l.
Proof. induction hs as [|h hs IH]; intros E; [reflexivity|]; simpl; rewrite (E h) by now left. rewrite IH; [reflexivity|intros; apply E; now right]. Qed.
Lemma load_ext st st' h p a : ok st -> (0 < p < h)%nat -> points st p -> (forall d, (d < h)%nat -> gget st' d = gget st d) ->
  load st' p a = load st p a.
Proof.
  intros O B (t & n & s & E) G. unfold load; rewrite (G p) by lia; rewrite E.
  destruct (O _ _ E) as (_ & _ & _ & B2 & _). now rewrite (G s) by lia.
Qed.
Lemma gty_ext st st' h d : (d < h)%nat -> (forall d, (d < h)%nat -> gget st' d = gget st d) -> gty st' d = gty st d.
Proof. intros B G; unfold gty; now rewrite G. Qed.
Lemma packet_ok_ext st st' h c p a : ok st -> (0 < p < h)%nat -> points st p -> (forall d, (d < h)%nat -> gget st' d = gget st d) ->
  packet_ok st' c p a = packet_ok st c p a.
Proof.
  intros O B P G. unfold packet_ok. generalize (seq 0 (N.to_nat c)); intros s. induction s as [|x s IH]; [reflexivity|]; simpl.
  rewrite IH. now rewrite (load_ext st st' h).
Qed.
Lemma dep_lt st h n ds d : Forall (dep_ok st h n) ds -> In d ds -> (0 < d < h)%nat.
Proof. intros F I; apply Forall_forall with (x := d) in F; [apply F|assumption]. Qed.
Lemma g_is_spec (v : gvar) x : g_is v x = true -> g_desc v = GLit x.
Proof. unfold g_is; destruct (g_desc v); try discriminate; intros E; apply N.eqb_eq in E; now subst. Qed.
(** What every builder guarantees *)
Definition built (st st' : store) (r : nat) (t : ty) (n : N) : Prop :=
  ext st st' /\ ok st' /\ exists d, gget st' r = Some (mkG t n d).

Lemma push_built st v st' r : ok st -> good st (S (length st)) v -> gpush st v = GOk (st', r) ->
  built st st' r (g_ty v) (g_size v) /\ r = S (length st) /\ gget st' r = Some v.
Proof.
  intros O G E; injection E as <- <-. split; [split; [|split]|split].
  - apply ext_push.
  - now apply ok_push.
  - exists (g_desc v); rewrite gget_new; now destruct v.
  - reflexivity.
  - apply gget_new.
Qed.
Lemma dep_ok_new st n d v : gget st d = Some v -> g_size v = 1 \/ g_size v = n -> dep_ok st (S (length st)) n d.
Proof. intros E S1; split; [apply gget_bound in E; lia|eauto]. Qed.
Lemma lit_good st h t n x : 1 <= n < 2 ^ 32 -> x < 2 ^ width t -> good st h (mkG t n (GLit x)).
Proof. intros; split; [assumption|split; [constructor|assumption]]. Qed.
Lemma zero_good (st : store) h t n : 1 <= n < 2 ^ 32 -> good st h (mkG t n (GLit 0)).
Proof. intros; apply lit_good; [assumption|]; destruct t; reflexivity. Qed.
Lemma ok_size st h v : ok st -> gget st h = Some v -> 1 <= g_size v < 2 ^ 32.
Proof. intros O E; apply (O _ _ E). Qed.
Lemma check_ok (a b : gvar) n : gcheck a b = GOk n ->
  n = N.max (g_size a) (g_size b) /\ (g_size a = 1 \/ g_size a = n) /\ (g_size b = 1 \/ g_size b = n).
Proof.
  unfold gcheck. destruct (_ && _) eqn:C; [|discriminate]. injection 1 as <-. apply andb_true_iff in C as [A B].
  apply orb_true_iff in A, B. split; [reflexivity|]. split; [destruct A as [Q|Q]|destruct B as [Q|Q]]; apply N.eqb_eq in Q; auto.
Qed.

(** ** Execution *)

Variable sem : K -> list N -> option N.
Variable junk : N -> N.
Variable old : nat -> N -> N.
Notation lane := (lane sem junk old).
Notation run := (run sem junk old).
Notation run_to := (run_to sem junk old).




(** Two executions agree if the operands do *)
Definition inert (d : gdesc K) : Prop :=
  match d with GOp _ _ | GAnd _ _ | GCopy _ | GCast _ _ | GGather _ _ _ | GPacket _ _ _ _ | GExtract _ _ => True | _ => False end.
Lemma run_congr2 st st' n n' r r' h v l l' : ok st -> good st h v -> inert (g_desc v) ->
  (forall d w, (0 < d < h)%nat -> gget st d = Some w -> g_size w = 1 \/ g_size w = g_size v -> (gget st h = Some v -> within st h d) -> r' d l' = r d l) ->
  (forall d, (d < h)%nat -> gty st' d = gty st d) ->
  (forall p a, (0 < p < h)%nat -> points st p -> load st' p a = load st p a) ->
  (forall d t z c p i m, (d < h)%nat -> gget st d = Some (mkG t z (GPacket c p i m)) -> gget st' d = Some (mkG t z (GPacket c p i m))) ->
  run n' st' r' h v l' = run n st r h v l.
Proof.
  intros O (_ & D & S1) Inr R Gt Gl Gp.
  assert (R1 : forall d, dep_ok st h (g_size v) d -> In d (deps_of (g_desc v)) -> r' d l' = r d l).
  { intros d (B & w & E & Sz) I; apply (R d w); try assumption. intros Eh; eapply within_dep; [exact Eh|exact I|constructor]. }
  assert (Pk : forall c p a, (0 < p < h)%nat -> points st p -> packet_ok st' c p a = packet_ok st c p a).
  { intros c p a B P. unfold packet_ok. generalize (seq 0 (N.to_nat c)); intros s. induction s as [|x s IH]; [reflexivity|]; simpl. now rewrite IH, Gl. }
  unfold Gat_Model.run; destruct (g_desc v) as [| | | | |k ds|a m|a|t0 a|p i m|c p i m|j a|p i m|] eqn:Dv; try contradiction; simpl in D.
  - assert (A : args r' ds l' = args r ds l); [|now rewrite A]. cbn [deps_of] in R1. clear -D R1. induction D as [|d ds Dd D IH]; [reflexivity|]. simpl. rewrite R1, IH; [reflexivity| |assumption|now left]. intros; apply R1; [assumption|now right].
  - inversion D as [|? ? Ba D2]; inversion D2 as [|? ? Bm _]; subst. now rewrite !R1 by (assumption || (simpl; tauto)).
  - inversion D as [|? ? Ba D2]; now rewrite R1 by (assumption || (simpl; tauto)).
  - inversion D as [|? ? Ba D2]; now rewrite R1 by (assumption || (simpl; tauto)).
  - inversion D as [|? ? Bp D2]; inversion D2 as [|? ? Bi D3]; inversion D3 as [|? ? Bm _]; subst.
    rewrite !R1 by (assumption || (simpl; tauto)). destruct (r i l); [simpl|reflexivity]; destruct (r m l); [simpl|reflexivity].
    rewrite Gl by (apply Bp || assumption). now rewrite Gt by apply Bi.
  - inversion D as [|? ? Bp D2]; inversion D2 as [|? ? Bi D3]; inversion D3 as [|? ? Bm _]; subst.
    rewrite !R1 by (assumption || (simpl; tauto)). destruct (r i l); [simpl|reflexivity]; destruct (r m l); [simpl|reflexivity].
    rewrite Pk by (apply Bp || assumption). now rewrite Gt by apply Bi.
  - inversion D as [|? ? Ba _]; subst. destruct S1 as (t & n1 & c & p & i & m & E).
    rewrite R1 by (assumption || (simpl; tauto)). destruct (r a l); [simpl|reflexivity]. destruct Ba as [Ba (w & E' & Sz)]. rewrite (Gp _ _ _ _ _ _ _ (proj2 Ba) E); rewrite E.
    rewrite E in E'; injection E' as <-. simpl in Sz.
    destruct (O _ _ E) as (_ & D2 & P); simpl in D2, P.
    inversion D2 as [|? ? [Bp _] D3]; inversion D3 as [|? ? [Bi (wi & Ei & Zi)] D4]; inversion D4 as [|? ? [Bm (wm & Em & Zm)] _]; subst.
    assert (Wi : forall d, In d [p; i; m] -> gget st h = Some v -> within st h d).
    { intros d Id Eh. eapply within_dep with (d := a); [exact Eh|rewrite Dv; simpl; auto|]. eapply within_dep; [exact E|exact Id|constructor]. }
    rewrite (R i wi) by (assumption || lia || (apply Wi; simpl; auto)). rewrite (R m wm) by (assumption || lia || (apply Wi; simpl; auto)).
    destruct (r i l); [simpl|reflexivity]; destruct (r m l); [simpl|reflexivity].
    rewrite Gl by (assumption || lia). now rewrite Gt by lia.
Qed.
Lemma run_congr st st' n r r' h v l : ok st -> good st h v ->
  (forall d, (0 < d < h)%nat -> r' d l = r d l) -> (forall d, (d < h)%nat -> gget st' d = gget st d) ->
  run n st' r' h v l = run n st r h v l.
Proof.
  intros O G R Gg. destruct (g_desc v) as [| | | | |k ds|a m|a|t0 a|p i m|c p i m|j a|p i m|] eqn:D;
    try (apply run_congr2; [assumption|assumption|rewrite D; exact I| | | |]; intros;
         [now apply R|unfold gty; now rewrite Gg|eapply load_ext; eassumption|rewrite Gg; assumption]);
    unfold Gat_Model.run; rewrite D; try reflexivity.
  destruct G as (_ & F & _); rewrite D in F; simpl in F.
  inversion F as [|? ? [Bp _] D2]; inversion D2 as [|? ? [Bi _] D3]; inversion D3 as [|? ? [Bm _] _]; subst.
  now rewrite !R by assumption.
Qed.

Lemma run_to_fuel st n l : ok st -> forall h f g, (h < f)%nat -> (h < g)%nat -> run_to f n st h l = run_to g n st h l.
Proof.
  intros O h. induction h as [h IH] using lt_wf_ind. intros f g F G.
  destruct f as [|f]; [lia|]; destruct g as [|g]; [lia|]; simpl.
  destruct (gget st h) as [v|] eqn:E; [|reflexivity].
  apply run_congr; [assumption|now apply O| |reflexivity]. intros d B; apply IH; lia.
Qed.
Lemma lane_eq st n h v l : ok st -> gget st h = Some v -> lane n st h l = run n st (lane n st) h v l.
Proof.
  intros O E. unfold Gat_Model.lane at 1. simpl. rewrite E.
  apply run_congr; [assumption|now apply O| |reflexivity]. intros d B; unfold Gat_Model.lane; apply run_to_fuel; (assumption || lia).
Qed.
Lemma lane_ext st st' n l : ok st -> ok st' -> ext st st' -> forall h, (h <= length st)%nat -> lane n st' h l = lane n st h l.
Proof.
  intros O O' X h. induction h as [h IH] using lt_wf_ind. intros B.
  destruct (gget st h) as [v|] eqn:E.
  - rewrite (lane_eq st' n h v) by (assumption || (eapply ext_get; eassumption)). rewrite (lane_eq st n h v) by assumption.
    apply run_congr; [assumption|now apply O|intros; apply IH; lia|].
    intros d Bd; destruct X as [x ->]; apply gget_app; lia.
  - unfold Gat_Model.lane; simpl; rewrite E. destruct X as [x ->]. now rewrite gget_app, E by assumption.
Qed.
Lemma lane_ext' st st' n h v l : ok st -> ok st' -> ext st st' -> gget st h = Some v -> lane n st' h l = lane n st h l.
Proof. intros O O' X E; apply lane_ext; try assumption. apply gget_bound in E; lia. Qed.

(** ** Builders *)

Lemma lane_lit st n h v x l : ok st -> gget st h = Some v -> g_desc v = GLit x -> lane n st h l = Some x.
Proof. intros O E D; rewrite (lane_eq st n h v) by assumption. unfold Gat_Model.run; now rewrite D. Qed.



Lemma resize_ok st h v n st' r : ok st -> gget st h = Some v -> 1 <= n < 2 ^ 32 -> gresize st h n = GOk (st', r) ->
  built st st' r (g_ty v) n /\ forall N l, lane N st' r l = lane N st' h l.
Proof.
  intros O E Bn. unfold gresize; rewrite E. destruct (N.eqb_spec (g_size v) n) as [S1|S1].
  { injection 1 as <- <-. split; [|reflexivity]. split; [apply ext_refl|split; [assumption|]].
    exists (g_desc v); rewrite E; subst n; now destruct v. }
  destruct (negb (g_size v =? 1) && negb (g_lit v)) eqn:C; [discriminate|].
  destruct (g_desc v) eqn:D.
  1: { intros P. destruct (O _ _ E) as (_ & _ & G); rewrite D in G.
       apply push_built in P; [|assumption|now apply lit_good]. destruct P as (P & -> & Pg). split; [exact P|].
       intros N l. destruct P as (X & O' & _). rewrite (lane_lit st' N _ _ x l O' Pg) by reflexivity.
       rewrite (lane_lit st' N h v x l O') by (assumption || (eapply ext_get; eassumption)). reflexivity. }
  all: assert (S2 : g_size v = 1) by
    (unfold g_lit in C; rewrite D in C; destruct (N.eqb_spec (g_size v) 1); [assumption|try discriminate;
     destruct (O _ _ E) as (_ & _ & G); rewrite D in G; apply G]);
    intros P; apply push_built in P; [|assumption| split; [assumption|split; [|exact I]]; simpl; constructor; [|constructor];
      eapply dep_ok_new; [exact E|left; exact S2]];
    destruct P as (P & -> & Pg); split; [exact P|]; intros N l; destruct P as (X & O' & _);
    rewrite (lane_eq st' N _ _ l O' Pg); reflexivity.
Qed.


Variable cp : bool.

(** Lanes where the mask is set keep their value; all others do not become set *)
Lemma and_ok st a m va vm st' r : ok st -> gget st a = Some va -> gget st m = Some vm -> gand cp st a m = GOk (st', r) ->
  is_bool (g_ty vm) = true /\
  built st st' r (g_ty va) (N.max (g_size va) (g_size vm)) /\
  (forall N l, lane N st' m l = Some 1 -> lane N st' r l = lane N st' a l) /\
  (forall N l x y, lane N st' m l = Some y -> y <> 1 -> lane N st' a l = Some x ->
     exists z, lane N st' r l = Some z /\ z <> 1 /\ (y = 0 -> z = 0)).
Proof.
  intros O Ea Em. unfold gand; rewrite Ea, Em. destruct (gcheck va vm) as [n| |] eqn:C; [simpl|discriminate..].
  apply check_ok in C as (N1 & Sa & Sm). rewrite <- N1.
  assert (Bn : 1 <= n < 2 ^ 32). { pose proof (ok_size _ _ _ O Ea); pose proof (ok_size _ _ _ O Em); lia. }
  destruct (is_bool (g_ty vm)) eqn:Bm; [simpl|discriminate].
  assert (Tm : g_ty vm = Bool) by (destruct (g_ty vm); simpl in Bm; congruence).
  (* the node *)
  assert (Node : forall st' r, gpush st (mkG (g_ty va) n (GAnd a m)) = GOk (st', r) ->
    built st st' r (g_ty va) n /\
    (forall N l, lane N st' m l = Some 1 -> lane N st' r l = lane N st' a l) /\
    (forall N l x y, lane N st' m l = Some y -> y <> 1 -> lane N st' a l = Some x ->
       exists z, lane N st' r l = Some z /\ z <> 1 /\ (y = 0 -> z = 0))).
  { intros st1 r1 P. apply push_built in P; [|assumption|].
    2: { split; [assumption|split; [|exact I]]; simpl; constructor; [|constructor; [|constructor]]; eapply dep_ok_new; eassumption. }
    destruct P as (P & -> & Pg). split; [exact P|]. destruct P as (X & O' & _). split.
    - intros N l L. rewrite (lane_eq st1 N _ _ l O' Pg). unfold Gat_Model.run; simpl. rewrite L. now destruct (lane N st1 a l).
    - intros N l x y L Ny La. exists 0. rewrite (lane_eq st1 N _ _ l O' Pg). unfold Gat_Model.run; simpl. rewrite L, La; simpl.
      destruct (N.eqb_spec y 1); [congruence|]. repeat split; discriminate. }
  destruct ((g_lit va || g_lit vm || Nat.eqb a m) && cp); [|intros P; split; [reflexivity|now apply Node]].
  destruct (g_lit va && g_lit vm && is_bool (g_ty va)) eqn:C1.
  { apply andb_true_iff in C1 as [C1 Ba]; apply andb_true_iff in C1 as [La Lm].
    assert (Ta : g_ty va = Bool) by (destruct (g_ty va); simpl in Ba; congruence).
    destruct (O _ _ Ea) as (_ & _ & Ga); destruct (O _ _ Em) as (_ & _ & Gm).
    unfold g_lit in La, Lm. unfold g_is. rewrite Ta in *. rewrite Tm in *.
    intros P. split; [reflexivity|]. apply push_built in P; [|assumption|apply lit_good; [assumption|destruct (_ && _); reflexivity]].
    destruct P as (P & -> & Pg). split; [exact P|]. destruct P as (X & O' & _).
    assert (Lr : forall N l, lane N st' (S (length st)) l = Some (if g_is va 1 && g_is vm 1 then 1 else 0))
      by (intros; now rewrite (lane_lit st' N _ _ _ l O' Pg eq_refl)).
    destruct (g_desc vm) as [y| | | |s| | | | | | | | | ] eqn:Dm; try discriminate Lm.
    2: { split; intros N l; [|intros x y]; intros L; rewrite (lane_eq st' N m vm l O' (ext_get _ _ _ _ X Em)) in L; unfold Gat_Model.run in L; rewrite Dm in L; [discriminate|].
         intros _ _. exists 0. rewrite Lr. unfold g_is; rewrite Dm, andb_false_r. repeat split; discriminate. }
    assert (Lm' : forall N l, lane N st' m l = Some y) by (intros; eapply lane_lit; [exact O'|eapply ext_get; eassumption|assumption]).
    destruct (g_desc va) as [x| | | |s| | | | | | | | | ] eqn:Da; try discriminate La.
    - assert (La' : forall N l, lane N st' a l = Some x) by (intros; eapply lane_lit; [exact O'|eapply ext_get; eassumption|assumption]).
      assert (x < 2) by exact Ga. unfold g_is in Lr; rewrite Da, Dm in Lr.
      split.
      + intros N l L. rewrite Lm' in L; injection L as ->. rewrite Lr, La'. destruct (N.eqb_spec x 1) as [->|Nx]; [reflexivity|]. f_equal; simpl. lia.
      + intros N l x1 y1 L Ny _. rewrite Lm' in L; injection L as ->. exists 0. rewrite Lr. apply N.eqb_neq in Ny; rewrite Ny, andb_false_r. repeat split; discriminate.
    - assert (La' : forall N l, lane N st' a l = Some 0) by (intros; rewrite (lane_eq st' N a va l O' (ext_get _ _ _ _ X Ea)); unfold Gat_Model.run; now rewrite Da).
      unfold g_is in Lr; rewrite Da in Lr. simpl in Lr. split; intros N l; [|intros x1 y1]; intros L; rewrite Lr; [now rewrite La'|].
      intros _ _; exists 0; repeat split; discriminate. }
  destruct (g_is va 0 || g_is vm 0) eqn:C2.
  { intros P. split; [reflexivity|]. apply push_built in P; [|assumption|now apply zero_good].
    destruct P as (P & -> & Pg). split; [exact P|]. destruct P as (X & O' & _).
    assert (Lr : forall N l, lane N st' (S (length st)) l = Some 0) by (intros; now rewrite (lane_lit st' N _ _ _ l O' Pg eq_refl)).
    split; [|intros; exists 0; rewrite Lr; repeat split; discriminate].
    intros N l L; rewrite Lr; apply orb_true_iff in C2 as [Z|Z]; apply g_is_spec in Z.
    - now rewrite (lane_lit st' N a va 0 l O' (ext_get _ _ _ _ X Ea) Z).
    - rewrite (lane_lit st' N m vm 0 l O' (ext_get _ _ _ _ X Em) Z) in L; discriminate. }
  destruct (g_is vm 1 || Nat.eqb a m) eqn:C3.
  { intros P. split; [reflexivity|]. eapply resize_ok in P; [|exact O|exact Ea|exact Bn]. destruct P as (P & Lr). split; [exact P|]. split; [intros; apply Lr|].
    intros N l x y L Ny La. apply orb_true_iff in C3 as [Z|Z].
    - apply g_is_spec in Z. destruct P as (X & O' & _). rewrite (lane_lit st' N m vm 1 l O' (ext_get _ _ _ _ X Em) Z) in L; congruence.
    - apply Nat.eqb_eq in Z; subst m. exists y. rewrite Lr. auto. }
  destruct (g_is va 1 && is_bool (g_ty va)) eqn:C4.
  { intros P. split; [reflexivity|]. apply andb_true_iff in C4 as [Z Ba]. apply g_is_spec in Z.
    eapply resize_ok in P; [|exact O|exact Em|exact Bn]. destruct P as (P & Lr).
    assert (Ta : g_ty va = Bool) by (destruct (g_ty va); simpl in Ba; congruence).
    rewrite Ta, <- Tm. split; [exact P|]. destruct P as (X & O' & _). split.
    - intros N l L. rewrite Lr, L. now rewrite (lane_lit st' N a va 1 l O' (ext_get _ _ _ _ X Ea) Z).
    - intros N l x y L Ny _. exists y. rewrite Lr. auto. }
  intros P; split; [reflexivity|now apply Node].
Qed.

Lemma cast_ok st a va t st' r : ok st -> gget st a = Some va -> gcast cp st a t = GOk (st', r) ->
  built st st' r t (g_size va) /\
  forall N l, lane N st' r l = (if ty_eqb (g_ty va) t then lane N st' a l
                                else let? x := lane N st' a l in Some (zwrap t (num (g_ty va) x))).
Proof.
  intros O E. unfold gcast; rewrite E. destruct (ty_eqb (g_ty va) t) eqn:T.
  { injection 1 as <- <-. split; [|reflexivity]. split; [apply ext_refl|split; [assumption|]].
    exists (g_desc va). rewrite E. destruct va as [t0 n d]; simpl in *. destruct t0, t; try discriminate T; reflexivity. }
  assert (Node : forall st' r, gpush st (mkG t (g_size va) (GCast (g_ty va) a)) = GOk (st', r) ->
    built st st' r t (g_size va) /\ forall N l, lane N st' r l = (let? x := lane N st' a l in Some (zwrap t (num (g_ty va) x)))).
  { intros st1 r1 P. apply push_built in P; [|assumption|].
    2: { split; [now apply (O _ _ E)|split; [|exact I]]; simpl; constructor; [|constructor]. eapply dep_ok_new; [exact E|now right]. }
    destruct P as (P & -> & Pg). split; [exact P|]. destruct P as (X & O' & _).
    intros N l. now rewrite (lane_eq st1 N _ _ l O' Pg). }
  destruct (g_desc va) eqn:D; try exact (Node st' r). destruct cp; [|exact (Node st' r)].
  intros P. apply push_built in P; [|assumption|].
  2: { apply lit_good; [now apply (O _ _ E)|]. unfold zwrap. destruct t; simpl width; lia. }
  destruct P as (P & -> & Pg). split; [exact P|]. destruct P as (X & O' & _). intros N l.
  rewrite (lane_lit st' N _ _ _ l O' Pg eq_refl). now rewrite (lane_lit st' N a va x l O' (ext_get _ _ _ _ X E) D).
Qed.
End Proofs.
