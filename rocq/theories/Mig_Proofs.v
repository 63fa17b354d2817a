(** Proofs about migration *)
From Verif Require Import Base Mig_Model Mig_Spec.

Lemma upd_eq m b x : upd m b x b = Some x.
Proof. unfold upd. now rewrite Nat.eqb_refl. Qed.
Lemma upd_neq m b x i : i <> b -> upd m b x i = m i.
Proof. unfold upd. intro. destruct (Nat.eqb_spec i b); congruence. Qed.

Lemma run_app be l1 : forall m l2, run be m (l1 ++ l2) = bind (run be m l1) (fun m => run be m l2).
Proof. induction l1 as [| a r IH]; intros m l2; cbn; [ reflexivity |]. destruct (exec be m a); cbn; [ apply IH | reflexivity ]. Qed.

(** Memory from block [n] on does not matter for work below [n] *)
Lemma exec_frame be a m m' mm n : exec be m a = Some m' -> (forall b, In b (mentions a) -> b < n) ->
  (forall b, b < n -> mm b = m b) ->
  exists mm', exec be mm a = Some mm' /\ (forall b, b < n -> mm' b = m' b) /\ (forall b, n <= b -> mm' b = mm b).
Proof.
  intros E M A. destruct a as [b l | b i z | d s]; cbn [exec mentions] in *.
  - assert (b < n) by (apply M; now left). rewrite A by assumption. destruct (m b) as [x |]; [| discriminate ].
    destruct (kernel_ok be (b_flavor x)); [| discriminate ]. injection E as <-. eexists. split; [ reflexivity |].
    unfold put_data, upd. split; intros c Hc; destruct (Nat.eqb_spec c b); auto; lia.
  - assert (b < n) by (apply M; now left). rewrite A by assumption. destruct (m b) as [x |]; [| discriminate ].
    destruct (kernel_ok be (b_flavor x)); [| discriminate ]. injection E as <-. eexists. split; [ reflexivity |].
    unfold put_data, upd. split; intros c Hc; destruct (Nat.eqb_spec c b); auto; lia.
  - assert (d < n) by (apply M; now left). assert (s < n) by (apply M; right; now left).
    rewrite !A by assumption. destruct (m d) as [x |]; [| discriminate ]. destruct (m s) as [y |]; [| discriminate ].
    destruct (copy_ok be (b_flavor x) && copy_ok be (b_flavor y)); [| discriminate ]. injection E as <-.
    eexists. split; [ reflexivity |].
    unfold put_data, upd. split; intros c Hc; destruct (Nat.eqb_spec c d); auto; lia.
Qed.
Lemma run_frame be n l : forall m m' mm, run be m l = Some m' -> (forall a b, In a l -> In b (mentions a) -> b < n) ->
  (forall b, b < n -> mm b = m b) ->
  exists mm', run be mm l = Some mm' /\ (forall b, b < n -> mm' b = m' b) /\ (forall b, n <= b -> mm' b = mm b).
Proof.
  induction l as [| a r IH]; intros m m' mm E M A; cbn [run] in *.
  - injection E as <-. exists mm. auto.
  - destruct (exec be m a) as [m1 |] eqn:E1; [| discriminate ]. cbn [bind] in E.
    destruct (exec_frame be a m m1 mm n E1) as (mm1 & F1 & F2 & F3); [ intros b Hb; apply (M a); [ now left | exact Hb ] | exact A |].
    destruct (IH m1 m' mm1 E) as (mm2 & G1 & G2 & G3); [ intros c b Hc; apply M; now right | exact F2 |].
    exists mm2. rewrite F1. cbn [bind]. split; [ exact G1 |]. split; [ exact G2 |]. intros b Hb. rewrite G3, F3 by exact Hb. reflexivity.
Qed.

Lemma exec_other be a m m' b : exec be m a = Some m' -> target a <> b -> m' b = m b.
Proof.
  intros E N. destruct a as [c l | c i z | d s]; cbn [exec target] in *.
  - destruct (m c); [| discriminate ]. destruct (kernel_ok _ _); [| discriminate ]. injection E as <-. apply upd_neq. congruence.
  - destruct (m c); [| discriminate ]. destruct (kernel_ok _ _); [| discriminate ]. injection E as <-. apply upd_neq. congruence.
  - destruct (m d); [| discriminate ]. destruct (m s); [| discriminate ]. destruct (_ && _); [| discriminate ].
    injection E as <-. apply upd_neq. congruence.
Qed.
Lemma run_other be b l : forall m m', run be m l = Some m' -> (forall a, In a l -> target a <> b) -> m' b = m b.
Proof.
  induction l as [| a r IH]; intros m m' E N; cbn [run] in E; [ congruence |].
  destruct (exec be m a) as [m1 |] eqn:E1; [| discriminate ]. cbn [bind] in E.
  rewrite (IH m1 m' E) by (intros c Hc; apply N; now right). apply (exec_other be a); [ exact E1 | apply N; now left ].
Qed.
(** Kinds of blocks do not change *)
Definition kind (m : memory) (b : nat) := option_map (fun x => (b_flavor x, b_own x)) (m b).
Lemma kind_put m b x l c : m b = Some x -> kind (put_data m b x l) c = kind m c.
Proof. intro E. unfold kind, put_data, upd. destruct (Nat.eqb_spec c b); [ subst; now rewrite E | reflexivity ]. Qed.
Lemma exec_kind be a m m' b : exec be m a = Some m' -> kind m' b = kind m b.
Proof.
  intros E. destruct a as [c l | c i z | d s]; cbn [exec] in *.
  - destruct (m c) eqn:Ec; [| discriminate ]. destruct (kernel_ok _ _); [| discriminate ]. injection E as <-. now apply kind_put.
  - destruct (m c) eqn:Ec; [| discriminate ]. destruct (kernel_ok _ _); [| discriminate ]. injection E as <-. now apply kind_put.
  - destruct (m d) eqn:Ed; [| discriminate ]. destruct (m s); [| discriminate ]. destruct (_ && _); [| discriminate ].
    injection E as <-. now apply kind_put.
Qed.
Lemma run_kind be b l : forall m m', run be m l = Some m' -> kind m' b = kind m b.
Proof.
  induction l as [| a r IH]; intros m m' E; cbn [run] in E; [ congruence |].
  destruct (exec be m a) as [m1 |] eqn:E1; [| discriminate ]. cbn [bind] in E.
  rewrite (IH m1 m' E). exact (exec_kind be a m m1 b E1).
Qed.
Lemma final_block be s m b x : final be s = Some m -> mem s b = Some x ->
  exists y, m b = Some y /\ b_flavor y = b_flavor x /\ b_own y = b_own x.
Proof.
  intros F E. pose proof (run_kind be b _ _ _ F) as Hk. unfold kind in Hk. rewrite E in Hk.
  destruct (m b) as [y |]; [| discriminate ]. cbn in Hk. injection Hk as H1 H2. exists y. auto.
Qed.

(** A new block with given contents *)
Definition good (be : backend) (s : state) (m : memory) (s' : state) (n : nat) (f : flavor) (l : list Z) : Prop :=
  exists m' x, final be s' = Some m' /\ next s <= n < next s' /\ (forall b, b < next s -> m' b = m b) /\
    m' n = Some x /\ b_flavor x = f /\ b_data x = l.

(** Final memory if there is one new block *)
Lemma ext be s m f l : sane s -> final be s = Some m ->
  exists m', run be (upd (mem s) (next s) {| b_flavor := f; b_own := true; b_data := l |}) (queue s) = Some m' /\
    (forall b, b < next s -> m' b = m b) /\ m' (next s) = Some {| b_flavor := f; b_own := true; b_data := l |} /\
    (forall b, next s < b -> m' b = mem s b).
Proof.
  intros (A & B) F.
  destruct (run_frame be (next s) (queue s) (mem s) m (upd (mem s) (next s) {| b_flavor := f; b_own := true; b_data := l |}) F A) as (m' & E & E1 & E2).
  { intros b Hb. apply upd_neq. lia. }
  exists m'. split; [ exact E |]. split; [ exact E1 |]. split.
  - rewrite E2 by lia. apply upd_eq.
  - intros b Hb. rewrite E2 by lia. apply upd_neq. lia.
Qed.

Lemma be_refl be : be_eqb be be = true. Proof. now destruct be. Qed.

Lemma async_ok be s m f junk b y : sane s -> final be s = Some m -> b < next s -> m b = Some y ->
  copy_ok be f = true -> copy_ok be (b_flavor y) = true ->
  exists s', submit be (fst (malloc s f junk)) be (ACopy (next s) b) = Some s' /\ good be s m s' (next s) f (b_data y).
Proof.
  intros Hs F Hb Hy C1 C2. unfold submit. rewrite be_refl. eexists. split; [ reflexivity |].
  destruct (ext be s m f junk Hs F) as (m1 & E & E1 & E2 & E3).
  unfold good, final. cbn [malloc fst mem queue next]. rewrite run_app, E. cbn [bind run exec].
  rewrite E2, (E1 b Hb), Hy. cbn [b_flavor]. rewrite C1, C2. cbn [andb bind].
  eexists _, _. split; [ reflexivity |]. split; [ lia |]. split.
  { intros c Hc. unfold put_data. rewrite upd_neq by lia. now apply E1. }
  split; [ apply upd_eq |]. split; reflexivity.
Qed.

Lemma set_ok be s m f junk l : sane s -> final be s = Some m -> kernel_ok be f = true ->
  exists s', submit be (fst (malloc s f junk)) be (ASet (next s) l) = Some s' /\ good be s m s' (next s) f l.
Proof.
  intros Hs F C1. unfold submit. rewrite be_refl. eexists. split; [ reflexivity |].
  destruct (ext be s m f junk Hs F) as (m1 & E & E1 & E2 & E3).
  unfold good, final. cbn [malloc fst mem queue next]. rewrite run_app, E. cbn [bind run exec].
  rewrite E2. cbn [b_flavor]. rewrite C1. cbn [bind].
  eexists _, _. split; [ reflexivity |]. split; [ lia |]. split.
  { intros c Hc. unfold put_data. rewrite upd_neq by lia. now apply E1. }
  split; [ apply upd_eq |]. split; reflexivity.
Qed.

(** Contents written at once *)
Lemma now_ok be s m f l mm : sane s -> final be s = Some m ->
  (forall b, mm b = upd (mem s) (next s) {| b_flavor := f; b_own := true; b_data := l |} b) ->
  good be s m {| mem := mm; next := S (next s); queue := queue s |} (next s) f l.
Proof.
  intros (A & B) F Hm.
  destruct (run_frame be (next s) (queue s) (mem s) m mm F A) as (m' & E & E1 & E2).
  { intros b Hb. rewrite Hm. apply upd_neq. lia. }
  exists m'. eexists. unfold final. cbn [mem queue next]. split; [ exact E |]. split; [ lia |]. split; [ exact E1 |].
  split; [ rewrite E2, Hm by lia; apply upd_eq |]. split; reflexivity.
Qed.

Lemma upd_twice m b f junk l c :
  put_data (upd m b {| b_flavor := f; b_own := true; b_data := junk |}) b {| b_flavor := f; b_own := true; b_data := junk |} l c =
  upd m b {| b_flavor := f; b_own := true; b_data := l |} c.
Proof. unfold put_data, upd. now destruct (Nat.eqb c b). Qed.

Lemma memcpy_ok be s m f junk b y : sane s -> final be s = Some m -> mem s b = Some y ->
  host_ok f = true -> host_ok (b_flavor y) = true ->
  exists s', memcpy (fst (malloc s f junk)) (next s) b = Some s' /\ good be s m s' (next s) f (b_data y).
Proof.
  intros Hs F Hy C1 C2. assert (Hb : b < next s) by (exact (proj2 Hs b y Hy)).
  unfold memcpy. cbn [malloc fst mem next queue exec]. rewrite upd_eq. rewrite upd_neq by lia. rewrite Hy.
  cbn [b_flavor copy_ok]. rewrite C1, C2. cbn [andb bind]. eexists. split; [ reflexivity |].
  apply now_ok; [ exact Hs | exact F |]. intro c. apply upd_twice.
Qed.

Lemma good_sane_malloc s f junk : sane s -> sane (fst (malloc s f junk)).
Proof.
  intros (A & B). split; cbn [malloc fst mem next queue].
  - intros a b Ha Hb. specialize (A a b Ha Hb). lia.
  - intros b x. unfold upd. destruct (Nat.eqb_spec b (next s)); [ lia |]. intro E. specialize (B b x E). lia.
Qed.

Lemma staged_ok s m junk b y : sane s -> final GPU s = Some m -> mem s b = Some y -> b_flavor y = Host ->
  exists s', (let '(s, n) := malloc s Gpu junk in
      let '(s, t) := malloc s Shared junk in
      let? s := memcpy s t b in submit GPU s GPU (ACopy n t)) = Some s' /\ good GPU s m s' (next s) Gpu (b_data y).
Proof.
  intros Hs F Hy Hf. assert (Hb : b < next s) by (exact (proj2 Hs b y Hy)).
  unfold malloc. cbn [mem next queue]. unfold memcpy. cbn [mem next queue exec].
  rewrite upd_eq. rewrite !(upd_neq _ _ _ b) by lia. rewrite Hy, Hf. cbn [b_flavor copy_ok host_ok andb bind].
  unfold submit. cbn [be_eqb mem next queue]. eexists. split; [ reflexivity |].
  set (mm := put_data _ _ _ _).
  assert (M1 : forall c, c < next s -> mm c = mem s c).
  { intros c Hc. unfold mm, put_data. rewrite !upd_neq by lia. reflexivity. }
  assert (M2 : mm (next s) = Some {| b_flavor := Gpu; b_own := true; b_data := junk |}).
  { unfold mm, put_data. rewrite !upd_neq by lia. apply upd_eq. }
  assert (M3 : mm (S (next s)) = Some {| b_flavor := Shared; b_own := true; b_data := b_data y |}) by apply upd_eq.
  destruct (run_frame GPU (next s) (queue s) (mem s) m mm F (proj1 Hs) M1) as (m' & E & E1 & E2).
  unfold good, final. cbn [mem queue next]. rewrite run_app, E. cbn [bind run exec].
  rewrite !E2 by lia. rewrite M2, M3. cbn [b_flavor copy_ok andb bind].
  eexists _, _. split; [ reflexivity |]. split; [ lia |]. split.
  { intros c Hc. unfold put_data. rewrite upd_neq by lia. now apply E1. }
  split; [ apply upd_eq |]. split; reflexivity.
Qed.

Definition fold_puts (puts : list (nat * Z)) (d : list Z) : list Z := fold_left (fun d p => set_nth (fst p) (snd p) d) puts d.
Lemma puts_ok be b puts : forall m x, m b = Some x -> kernel_ok be (b_flavor x) = true \/ puts = [] ->
  exists m' x', run be m (map (fun p => APut b (fst p) (snd p)) puts) = Some m' /\ m' b = Some x' /\
    b_flavor x' = b_flavor x /\ b_data x' = fold_puts puts (b_data x) /\ (forall c, c <> b -> m' c = m c).
Proof.
  induction puts as [| p r IH]; intros m x Hx Hk; cbn [map run].
  - exists m, x. repeat split; auto.
  - destruct Hk as [Hk |]; [| discriminate ]. cbn [exec]. rewrite Hx, Hk. cbn [bind].
    destruct (IH (put_data m b x (set_nth (fst p) (snd p) (b_data x))) _ (upd_eq _ _ _)) as (m' & x' & E1 & E2 & E3 & E4 & E5).
    { left. exact Hk. }
    exists m', x'. split; [ exact E1 |]. split; [ exact E2 |]. split; [ exact E3 |]. split; [ exact E4 |].
    intros c Hc. rewrite E5 by exact Hc. now apply upd_neq.
Qed.

(** From evaluated variables *)
Lemma owned_ok be s m b x y dst junk : sane s -> final be s = Some m -> mem s b = Some x -> m b = Some y ->
  (dst = DNone \/ dst = DBe be) -> b_flavor x = Host \/ backend_of (b_flavor x) = DBe be ->
  (b_flavor x = Host -> forall a, In a (queue s) -> target a <> b) ->
  exists s' n f, malloc_migrate be s b x dst junk = Ok s' n /\ good be s m s' n f (b_data y) /\ usable dst f = true.
Proof.
  intros Hs F Hx Hy Hd Hf Hq. assert (Hb : b < next s) by (exact (proj2 Hs b x Hx)).
  destruct (final_block be s m b x F Hx) as (y' & Hy' & Ef & _). assert (y' = y) by congruence. subst y'.
  assert (HH : b_flavor x = Host -> b_data y = b_data x).
  { intro Hh. pose proof (run_other be b _ _ _ F (Hq Hh)). congruence. }
  unfold malloc_migrate. destruct (b_flavor x) eqn:Ex; cbn [backend_of].
  - specialize (HH eq_refl). rewrite HH. destruct dst as [| d].
    + destruct (memcpy_ok be s m Host junk b x Hs F Hx eq_refl) as (s' & E & G); [ now rewrite Ex |].
      unfold malloc in *. cbn [fst flavor_of] in *. rewrite E. eexists _, _, _. split; [ reflexivity |]. split; [ exact G | reflexivity ].
    + destruct Hd as [Hd | Hd]; [ discriminate |]. assert (d = be) by congruence. subst d. destruct be.
      * destruct (memcpy_ok LLVM s m Cpu junk b x Hs F Hx eq_refl) as (s' & E & G); [ now rewrite Ex |].
        unfold malloc in *. cbn [fst flavor_of] in *. rewrite E. eexists _, _, _. split; [ reflexivity |]. split; [ exact G | reflexivity ].
      * destruct (staged_ok s m junk b x Hs F Hx Ex) as (s' & E & G).
        unfold malloc in *. cbn [mem next queue] in *. rewrite E. eexists _, _, _. split; [ reflexivity |]. split; [ exact G | reflexivity ].
  - destruct Hf as [Hf | Hf]; [ discriminate |]. cbn in Hf. assert (be = LLVM) by congruence. subst be.
    destruct (async_ok LLVM s m Cpu junk b y Hs F Hb Hy eq_refl) as (s' & E & G); [ now rewrite Ef |].
    unfold malloc in *. cbn [fst] in *.
    destruct dst as [| d]; [| destruct Hd as [Hd | Hd]; [ discriminate |]; assert (d = LLVM) by congruence; subst d ];
      rewrite E; eexists _, _, _; (split; [ reflexivity |]); (split; [ exact G | reflexivity ]).
  - destruct Hf as [Hf | Hf]; [ discriminate |]. cbn in Hf. assert (be = GPU) by congruence. subst be.
    destruct dst as [| d]; [| destruct Hd as [Hd | Hd]; [ discriminate |]; assert (d = GPU) by congruence; subst d ].
    + destruct (async_ok GPU s m Shared junk b y Hs F Hb Hy eq_refl eq_refl) as (s' & E & G).
      unfold malloc in *. cbn [fst] in *. rewrite E. eexists _, _, _. split; [ reflexivity |]. split; [ exact G | reflexivity ].
    + destruct (async_ok GPU s m Gpu junk b y Hs F Hb Hy eq_refl eq_refl) as (s' & E & G).
      unfold malloc in *. cbn [fst] in *. rewrite E. eexists _, _, _. split; [ reflexivity |]. split; [ exact G | reflexivity ].
  - destruct Hf as [Hf | Hf]; [ discriminate |]. cbn in Hf. assert (be = GPU) by congruence. subst be.
    destruct dst as [| d]; [| destruct Hd as [Hd | Hd]; [ discriminate |]; assert (d = GPU) by congruence; subst d ].
    + destruct (async_ok GPU s m Shared junk b y Hs F Hb Hy eq_refl eq_refl) as (s' & E & G).
      unfold malloc in *. cbn [fst] in *. rewrite E. eexists _, _, _. split; [ reflexivity |]. split; [ exact G | reflexivity ].
    + destruct (async_ok GPU s m Gpu junk b y Hs F Hb Hy eq_refl eq_refl) as (s' & E & G).
      unfold malloc in *. cbn [fst] in *. rewrite E. eexists _, _, _. split; [ reflexivity |]. split; [ exact G | reflexivity ].
Qed.

Lemma foreign_ok be s m b y dst junk : sane s -> final be s = Some m -> b < next s -> m b = Some y ->
  (dst = DNone \/ dst = DBe be) -> b_flavor y = Host \/ backend_of (b_flavor y) = DBe be ->
  exists s', submit be (fst (malloc s (flavor_of dst) junk)) be (ACopy (next s) b) = Some s' /\
    good be s m s' (next s) (flavor_of dst) (b_data y) /\ usable dst (flavor_of dst) = true.
Proof.
  intros Hs F Hb Hy Hd Hf.
  destruct (async_ok be s m (flavor_of dst) junk b y Hs F Hb Hy) as (s' & E & G).
  - destruct be, dst as [| []]; destruct Hd; try discriminate; reflexivity.
  - destruct be; [| reflexivity ]. destruct (b_flavor y), Hf; try discriminate; reflexivity.
  - exists s'. split; [ exact E |]. split; [ exact G |]. destruct be, dst as [| []]; destruct Hd; try discriminate; reflexivity.
Qed.

Lemma migrate_ok be s m v dst junk : sane s -> final be s = Some m -> legal be s v dst ->
  exists s' v', var_migrate be s v dst junk = Ok s' v' /\ migrated be s m v dst s' v'.
Proof.
  intros Hs F (Hv & Hd & Hl). unfold var_migrate. destruct (v_con v) as [z | | l | b puts] eqn:Ec.
  - (* Lit *)
    assert (G : exists s' , (let '(s, n) := malloc s (flavor_of dst) junk in
        match dst with
        | DNone => let? m := exec LLVM (mem s) (ASet n (repeat z (v_len v))) in Some {| mem := m; next := next s; queue := queue s |}
        | DBe d => submit be s d (ASet n (repeat z (v_len v)))
        end) = Some s' /\ good be s m s' (next s) (flavor_of dst) (repeat z (v_len v)) /\ usable dst (flavor_of dst) = true).
    { destruct Hd as [-> | ->].
      - unfold malloc. cbn [flavor_of mem next queue exec]. rewrite upd_eq. cbn [b_flavor kernel_ok bind].
        eexists. split; [ reflexivity |]. split; [| reflexivity ]. apply now_ok; [ exact Hs | exact F |]. intro. apply upd_twice.
      - destruct (set_ok be s m (flavor_of (DBe be)) junk (repeat z (v_len v)) Hs F) as (s' & E & G); [ now destruct be |].
        exists s'. split; [ exact E |]. split; [ exact G | now destruct be ]. }
    destruct G as (s' & E & (m' & x & G1 & G2 & G3 & G4 & G5 & G6) & U).
    exists s', {| v_be := be; v_len := v_len v; v_con := Mem (next s) [] |}. split.
    { unfold malloc in *. destruct dst; unfold lift; rewrite E; reflexivity. }
    split; [ reflexivity |]. split; [ reflexivity |]. exists m', (next s), x. split; [ exact G1 |]. split; [ reflexivity |].
    split; [ exact G2 |]. split; [ exact G4 |]. split; [ now rewrite G5 |]. split.
    + intros _ l He. unfold elements in *. rewrite Ec in He. cbn. exists x. split; [ exact G4 |]. rewrite G6, He.
      rewrite firstn_all2; [ reflexivity | rewrite repeat_length; lia ].
    + rewrite Ec. intros c y Hc Hy. exists y. rewrite G3 by exact Hc. auto.
  - (* Undef *)
    pose proof (now_ok be s m (flavor_of dst) junk _ Hs F (fun b => eq_refl)) as (m' & x & G1 & G2 & G3 & G4 & G5 & G6).
    eexists _, _. split; [ reflexivity |]. split; [ reflexivity |]. split; [ reflexivity |].
    exists m', (next s), x. split; [ exact G1 |]. split; [ reflexivity |]. split; [ exact G2 |]. split; [ exact G4 |].
    split. { rewrite G5. destruct be, dst as [| []]; destruct Hd; try discriminate; reflexivity. }
    split; [ rewrite Ec; congruence |]. rewrite Ec. intros c y Hc Hy. exists y. rewrite G3 by exact Hc. auto.
  - (* Expr *)
    destruct (set_ok be s m (flavor_of (DBe be)) junk l Hs F) as (s1 & E & G); [ now destruct be |].
    unfold submit in E. rewrite be_refl in E. injection E as E.
    assert (Ev : eval be s v junk = (s1, next s)) by (unfold eval; rewrite Ec, <- E; reflexivity).
    rewrite Ev.
    destruct G as (m1 & x & G1 & G2 & G3 & G4 & G5 & G6).
    assert (S1 : sane s1).
    { rewrite <- E. destruct Hs as (A & B). split; cbn [mem next queue].
      - intros a b Ha Hb. apply in_app_iff in Ha. destruct Ha as [Ha | [<- | []]].
        + specialize (A a b Ha Hb). lia.
        + cbn in Hb. lia.
      - intros b y. unfold upd. destruct (Nat.eqb_spec b (next s)); [ lia |]. intro Q. specialize (B b y Q). lia. }
    assert (X1 : mem s1 (next s) = Some {| b_flavor := flavor_of (DBe be); b_own := true; b_data := junk |}).
    { rewrite <- E. cbn [mem]. apply upd_eq. }
    rewrite X1. cbn [b_own].
    destruct (owned_ok be s1 m1 (next s) _ x dst junk S1 G1 X1 G4 Hd) as (s2 & n & f & E2 & (m2 & x2 & K1 & K2 & K3 & K4 & K5 & K6) & U).
    { right. now destruct be. }
    { cbn. now destruct be. }
    rewrite E2. eexists _, _. split; [ reflexivity |]. split; [ reflexivity |]. split; [ reflexivity |].
    exists m2, n, x2. split; [ exact K1 |]. split; [ reflexivity |]. split; [ lia |]. split; [ exact K4 |].
    split; [ now rewrite K5 |]. split.
    + intros _ e He. unfold elements in *. rewrite Ec in He. cbn. exists x2. split; [ exact K4 |].
      rewrite K6, G6, He. rewrite firstn_all2; [ reflexivity | rewrite Hl; lia ].
    + rewrite Ec. intros c y Hc Hy. exists y. rewrite K3, G3 by lia. auto.
  - (* Mem *)
    destruct Hl as (x & Hx & Hf & Hk & Hq). unfold eval. rewrite Ec. cbn [mem]. rewrite Hx.
    assert (Hb : b < next s) by (exact (proj2 Hs b x Hx)).
    destruct (final_block be s m b x F Hx) as (y & Hy & Ef & _).
    destruct (puts_ok be b puts m y Hy) as (m1 & y1 & P1 & P2 & P3 & P4 & P5); [ now rewrite Ef |].
    set (s1 := {| mem := mem s; next := next s; queue := queue s ++ map (fun p => APut b (fst p) (snd p)) puts |}).
    assert (F1 : final be s1 = Some m1).
    { unfold final, s1. cbn [mem queue]. rewrite run_app. unfold final in F. rewrite F. exact P1. }
    assert (S1 : sane s1).
    { destruct Hs as (A & B). split; cbn [s1 mem next queue]; [| exact B ]. intros a c Ha Hc.
      apply in_app_iff in Ha. destruct Ha as [Ha | Ha]; [ exact (A a c Ha Hc) |].
      apply in_map_iff in Ha. destruct Ha as (p & <- & _). cbn in Hc. lia. }
    assert (G : exists s' n f, (if b_own x then malloc_migrate be s1 b x dst junk
        else let '(s, n) := malloc s1 (flavor_of dst) junk in lift (submit be s be (ACopy n b)) n) = Ok s' n /\
        good be s1 m1 s' n f (b_data y1) /\ usable dst f = true).
    { destruct (b_own x) eqn:Eo.
      - apply (owned_ok be s1 m1 b x y1 dst junk S1 F1 Hx P2 Hd Hf).
        intros Hh a Ha. destruct (Hq eq_refl Hh) as (Hp & Hqq). subst puts. unfold s1 in Ha. cbn in Ha.
        rewrite app_nil_r in Ha. now apply Hqq.
      - destruct (foreign_ok be s1 m1 b y1 dst junk S1 F1 Hb P2 Hd) as (s' & E & G & U).
        { rewrite P3, Ef. exact Hf. }
        unfold malloc in *. cbn [fst] in E. exists s', (next s1), (flavor_of dst). rewrite E. split; [ reflexivity |]. split; [ exact G | exact U ]. }
    destruct G as (s' & n & f & E & (m2 & x2 & K1 & K2 & K3 & K4 & K5 & K6) & U). rewrite E.
    eexists _, _. split; [ reflexivity |]. split; [ reflexivity |]. split; [ reflexivity |].
    exists m2, n, x2. split; [ exact K1 |]. split; [ reflexivity |]. split; [ exact K2 |]. split; [ exact K4 |].
    split; [ now rewrite K5 |]. split.
    + intros _ e He. unfold elements in *. rewrite Ec in He. destruct He as (y' & Hy' & ->). assert (y' = y) by congruence. subst y'.
      cbn [v_con v_len]. exists x2. split; [ exact K4 |]. rewrite K6, P4. reflexivity.
    + rewrite Ec. intros c w Hc Hw. change (next s1) with (next s) in K3. rewrite K3 by exact Hc.
      destruct (Nat.eqb_spec c b) as [-> | Hn].
      * assert (w = y) by congruence. subst w. exists y1. split; [ exact P2 |]. split; [ exact P3 | exact P4 ].
      * rewrite P5 by exact Hn. exists w. auto.
Qed.
