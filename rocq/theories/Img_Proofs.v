(** Machine code of LLVM kernels: proofs *)
From Verif Require Import Base Img_Model Img_Spec.
Local Open Scope N_scope.

Lemma up_unique e a p : a <> 0 -> e <= p -> (a | p) -> p < e + a -> (e + (a - 1)) / a * a = p.
Proof.
  intros A0 L1 [q ->] L2. f_equal. symmetry. apply N.div_unique with (r := e + (a - 1) - q * a); [lia|lia].
Qed.
Lemma eff_nonzero a : eff a <> 0.
Proof. unfold eff. destruct (N.eqb_spec a 0); lia. Qed.
Lemma eff_bound a : a < 2 ^ 32 -> eff a < 2 ^ 32.
Proof. unfold eff. destruct (N.eqb_spec a 0); [reflexivity|auto]. Qed.
Lemma Placed_le e l L e' : Placed e l L e' -> e <= e'.
Proof. induction 1; lia. Qed.
Lemma Placed_length e l L e' : Placed e l L e' -> length L = length l.
Proof. induction 1; cbn; auto. Qed.
Lemma Placed_in e l L e' : Placed e l L e' -> forall i p s, nth_error L i = Some (p, s) -> e <= p /\ p + s <= e'.
Proof.
  induction 1 as [|e size align p l L e' A B C D IH]; intros i q s E; [destruct i; discriminate|].
  pose proof (Placed_le _ _ _ _ D). destruct i as [|i]; cbn in E; [injection E as <- <-; lia|]. apply IH in E. lia.
Qed.
Lemma Placed_align e l L e' : Placed e l L e' -> forall i p s s' a,
  nth_error L i = Some (p, s) -> nth_error l i = Some (s', a) -> (eff a | p) /\ s = s'.
Proof.
  induction 1 as [|e size align p l L e' A B C D IH]; intros i q s s' a E F; [destruct i; discriminate|].
  destruct i as [|i]; cbn in E, F; [injection E as <- <-; injection F as <- <-; auto|]. eauto.
Qed.

(** Sections before the end, in order *)
Definition chain (L : list (N * N)) (e : N) : Prop :=
  (forall i p s, nth_error L i = Some (p, s) -> p + s <= e) /\
  (forall i j p s q t, (i < j)%nat -> nth_error L i = Some (p, s) -> nth_error L j = Some (q, t) -> p + s <= q).

Record EI (past : list ev) (m : mgr) (L : list (N * N)) (base : N) : Prop := {
  ei_live : m_live m = true; ei_data : m_data m = Some base; ei_len : m_len m = m_size m; ei_got : m_got m = false;
  ei_chain : chain L (m_off m);
  ei_zero : forall o, o < m_off m -> (forall i p s, nth_error L i = Some (p, s) -> ~ (p <= o < p + s)) -> m_mem m o = 0;
  ei_stored : forall i o b, stored past i o = Some b -> exists p s, nth_error L i = Some (p, s) /\ o < s /\ m_mem m (p + o) = b
}.

Lemma stored_app a b k o : stored (a ++ b) k o = match stored b k o with Some x => Some x | None => stored a k o end.
Proof.
  induction a as [|[s al g|k' o' x] a IH]; cbn [app stored]; [now destruct (stored b k o)|exact IH|].
  rewrite IH. destruct (stored b k o); reflexivity.
Qed.
Lemma nth_snoc {A} (l : list A) x i y : nth_error (l ++ [x]) i = Some y ->
  nth_error l i = Some y \/ i = length l /\ y = x.
Proof.
  intros E. destruct (Nat.lt_ge_cases i (length l)) as [H|H].
  - rewrite nth_error_app1 in E by exact H. auto.
  - rewrite nth_error_app2 in E by exact H. destruct (i - length l)%nat as [|k] eqn:K.
    + cbn in E. injection E as <-. right. split; [lia|reflexivity].
    + destruct k; discriminate.
Qed.

Definition tell (base : N) (L : list (N * N)) : list (N * N) := map (fun x => (base + fst x, snd x)) L.

Lemma chain_snoc L e p s : chain L e -> e <= p -> chain (L ++ [(p, s)]) (p + s).
Proof.
  intros [A B] H. split.
  - intros i q t E. apply nth_snoc in E as [E|[_ [= -> ->]]]; [apply A in E; lia|lia].
  - intros i j q t r u L1 E F. apply nth_snoc in F as [F|[-> [= -> ->]]].
    + assert (j < length L)%nat by (apply nth_error_Some; congruence).
      apply nth_snoc in E as [E|[-> _]]; [exact (B _ _ _ _ _ _ L1 E F)|lia].
    + apply nth_snoc in E as [E|[-> _]]; [apply A in E; lia|lia].
Qed.

Lemma allocate_ok past m L base size align p : EI past m L base -> align < 2 ^ 32 -> m_size m < 2 ^ 63 ->
  m_off m <= p -> (eff align | p) -> p < m_off m + eff align -> p + size <= m_size m ->
  exists m', allocate m size align false = Done (m', Some (base + p)) /\
    EI (past ++ [EAlloc size align false]) m' (L ++ [(p, size)]) base /\ m_off m' = p + size /\ m_size m' = m_size m.
Proof.
  intros [E1 E2 E3 E4 E5 E6 E7] AL SZ L1 D L2 FIT. unfold allocate. rewrite E2. fold (eff align).
  pose proof (eff_bound _ AL) as AB.
  assert (U : w64 (w64 (m_off m + (eff align - 1)) / eff align * eff align) = p).
  { unfold w64. rewrite (N.mod_small (m_off m + _)) by lia. rewrite (up_unique _ _ _ (eff_nonzero align) L1 D L2). apply N.mod_small. lia. }
  rewrite U. rewrite (proj2 (N.ltb_ge p (m_off m))) by lia. rewrite E1, E3. cbn [negb orb].
  rewrite (proj2 (N.ltb_ge (m_size m) p)) by lia. rewrite andb_false_r.
  assert (W : w64 (p + size) = p + size) by (apply N.mod_small; lia). rewrite W. cbn [m_size].
  rewrite (proj2 (N.ltb_ge (m_size m) (p + size))) by lia.
  eexists. split; [reflexivity|]. split; [|split; reflexivity]. split; cbn [m_live m_data m_len m_size m_off m_got m_mem]; auto.
  - now rewrite E4.
  - now apply chain_snoc with (e := m_off m).
  - intros o O NI. destruct (N.leb_spec (m_off m) o) as [X|X]; cbn [andb].
    + destruct (N.ltb_spec o p) as [Y|Y]; [reflexivity|]. exfalso.
      apply (NI (length L) p size); [rewrite nth_error_app2, Nat.sub_diag by lia; reflexivity|lia].
    + apply E6; [exact X|]. intros i q s E. apply (NI i q s). rewrite nth_error_app1; [exact E|]. apply nth_error_Some. congruence.
  - intros i o b S1. rewrite stored_app in S1. cbn [stored] in S1. apply E7 in S1 as (q & s & N1 & O & M).
    exists q, s. split; [rewrite nth_error_app1; [exact N1|apply nth_error_Some; congruence]|]. split; [exact O|].
    pose proof (proj1 E5 _ _ _ N1). rewrite (proj2 (N.leb_gt (m_off m) (q + o))) by lia. exact M.
Qed.

Lemma store_ok past m L base k off b p s : EI past m L base -> nth_error L k = Some (p, s) -> off < s ->
  EI (past ++ [EStore k off b]) (set_mem m (fun o => if o =? p + off then b else m_mem m o)) L base.
Proof.
  intros [E1 E2 E3 E4 E5 E6 E7] NK O. split; cbn [set_mem m_live m_data m_len m_size m_off m_got m_mem]; auto.
  - intros o O1 NI. destruct (N.eqb_spec o (p + off)) as [->|X]; [|auto]. exfalso. apply (NI k p s NK). lia.
  - intros i o x S1. rewrite stored_app in S1. cbn [stored] in S1.
    destruct (Nat.eqb k i && (off =? o)) eqn:C.
    + injection S1 as <-. apply andb_true_iff in C as [C1 C2]. apply Nat.eqb_eq in C1. apply N.eqb_eq in C2. subst i o.
      exists p, s. split; [exact NK|]. split; [exact O|]. now rewrite N.eqb_refl.
    + apply E7 in S1 as (q & t & N1 & O1 & M). exists q, t. split; [exact N1|]. split; [exact O1|].
      destruct (N.eqb_spec (q + o) (p + off)) as [X|X]; [|exact M]. exfalso.
      destruct (Nat.lt_trichotomy i k) as [LT|[->|LT]].
      * pose proof (proj2 E5 _ _ _ _ _ _ LT N1 NK). lia.
      * rewrite NK in N1. injection N1 as <- <-. rewrite Nat.eqb_refl in C. cbn in C. apply N.eqb_neq in C. lia.
      * pose proof (proj2 E5 _ _ _ _ _ _ LT NK N1). lia.
Qed.

Lemma events_ok evs : forall past m L base L2 e, EI past m L base -> m_size m < 2 ^ 63 ->
  Placed (m_off m) (secs evs) L2 e -> inside (map snd L) evs -> e <= m_size m ->
  exists m', events m (tell base L) evs = Done (m', tell base (L ++ L2)) /\ EI (past ++ evs) m' (L ++ L2) base /\
    m_off m' = e /\ m_size m' = m_size m.
Proof.
  induction evs as [|[size align got|k off b] evs IH]; intros past m L base L2 e H SZ PL IN FIT; cbn [events secs inside] in *.
  - inversion PL; subst. exists m. rewrite !app_nil_r. auto.
  - inversion PL as [|e0 size0 align0 p l L0 e' P1 P2 P3 P4]; subst. destruct IN as (AL & -> & IN).
    pose proof (Placed_le _ _ _ _ P4).
    destruct (allocate_ok past m L base size align p H AL SZ P1 P2 P3) as (m1 & -> & H1 & O1 & S1); [lia|].
    destruct (IH (past ++ [EAlloc size align false]) m1 (L ++ [(p, size)]) base L0 e H1) as (m' & R & H' & O' & S');
      [lia|now rewrite O1|rewrite map_app; exact IN|lia|].
    exists m'. rewrite <- !app_assoc in *. cbn [app] in *. split; [|split; [exact H'|split; [exact O'|congruence]]].
    rewrite <- R. f_equal. unfold tell. rewrite map_app. reflexivity.
  - destruct IN as ((s & NS & O) & IN). rewrite (ei_data _ _ _ _ H).
    assert (exists p, nth_error L k = Some (p, s)) as (p & NK).
    { rewrite nth_error_map in NS. destruct (nth_error L k) as [[p t]|]; [|discriminate]. injection NS as <-. eauto. }
    unfold tell at 1. rewrite nth_error_map, NK. cbn [option_map fst snd].
    pose proof (proj1 (ei_chain _ _ _ _ H) _ _ _ NK). pose proof (Placed_le _ _ _ _ PL).
    rewrite (proj2 (N.ltb_lt off s) O), (ei_live _ _ _ _ H), (ei_len _ _ _ _ H). cbn [andb].
    replace (base + p + off - base) with (p + off) by lia. rewrite (proj2 (N.ltb_lt (p + off) (m_size m))) by lia.
    destruct (IH (past ++ [EStore k off b]) _ L base L2 e (store_ok past m L base k off b p s H NK O)) as (m' & R & H' & O' & S'); auto.
    exists m'. rewrite <- !app_assoc in H'. cbn [app] in H'. auto.
Qed.

(** * The manager between compilations *)
Definition Good (m : mgr) : Prop :=
  m_got m = false /\ m_len m = m_size m /\ m_size m < 2 ^ 63 /\
  ((m_data m = None /\ m_size m = 0) \/ exists a, m_data m = Some a /\ m_live m = true /\ (page | a)).

Lemma prepare_ok m n a junk : Good m -> 0 < n -> 10 * n < 2 ^ 63 -> (page | a) ->
  exists m' base, prepare m n (Some (a, junk)) = Done m' /\ EI [] m' [] base /\ m_off m' = 0 /\ (page | base) /\
    10 * n <= m_size m' /\ m_size m' < 2 ^ 63.
Proof.
  intros (G1 & G2 & G3 & G4) N0 N1 PA. unfold prepare.
  assert (W : w64 (n * 10) = 10 * n) by (unfold w64; rewrite N.mod_small; lia). rewrite W.
  assert (EIm : forall d f len, EI [] {| m_data := Some d; m_mem := f; m_len := len; m_live := true; m_size := len; m_off := 0; m_got := m_got m |} [] d).
  { intros d f len. split; cbn [m_live m_data m_len m_size m_off m_got m_mem stored]; auto; try (intros; lia); try discriminate.
    split; intros i; destruct i; discriminate. }
  destruct (N.leb_spec (m_size m) (10 * n)) as [C|C].
  - replace (match m_data m with Some _ => negb (m_live m) | None => false end) with false; cycle 1.
    { destruct G4 as [[-> _]|(b & -> & -> & _)]; reflexivity. }
    exists {| m_data := Some a; m_mem := junk; m_len := 10 * n; m_live := true; m_size := 10 * n; m_off := 0; m_got := m_got m |}, a.
    split; [reflexivity|]. split; [apply EIm|]. cbn [m_off m_size]. repeat split; auto; lia.
  - destruct G4 as [[_ Z]|(b & Db & Lb & Pb)]; [lia|]. rewrite Db, Lb, G2.
    exists {| m_data := Some b; m_mem := m_mem m; m_len := m_size m; m_live := true; m_size := m_size m; m_off := 0; m_got := m_got m |}, b.
    split; [reflexivity|]. split; [apply EIm|]. cbn [m_off m_size]. repeat split; auto; lia.
Qed.

(** * Pointers *)
Lemma get8_put8 f p v : v < 2 ^ 64 -> get8 (put8 f p v) p = v.
Proof.
  intros V. unfold get8, put8.
  assert (X : forall j, j < 8 -> (if (p <=? p + j) && (p + j <? p + 8) then v / 256 ^ (p + j - p) mod 256 else f (p + j)) = v / 256 ^ j mod 256).
  { intros j J. rewrite (proj2 (N.leb_le p (p + j))) by lia. rewrite (proj2 (N.ltb_lt (p + j) (p + 8))) by lia.
    cbn [andb]. now replace (p + j - p) with j by lia. }
  pose proof (X 0 ltac:(lia)) as X0. rewrite N.add_0_r in X0. rewrite X0. rewrite !X by lia. clear X X0.
  change (256 ^ 0) with 1. rewrite N.div_1_r.
  assert (D : forall k, v / 256 ^ N.succ k = v / 256 ^ k / 256).
  { intros k. rewrite N.pow_succ_r', N.mul_comm, N.div_div; [reflexivity|apply N.pow_nonzero; lia|lia]. }
  change 7 with (N.succ 6). change 6 with (N.succ 5). change 5 with (N.succ 4). change 4 with (N.succ 3).
  change 3 with (N.succ 2). change 2 with (N.succ 1). change 1 with (N.succ 0). rewrite !D. change (256 ^ 0) with 1. rewrite N.div_1_r.
  pose proof (N.div_mod v 256 ltac:(lia)) as E0. set (v1 := v / 256) in *.
  pose proof (N.div_mod v1 256 ltac:(lia)) as E1. set (v2 := v1 / 256) in *.
  pose proof (N.div_mod v2 256 ltac:(lia)) as E2. set (v3 := v2 / 256) in *.
  pose proof (N.div_mod v3 256 ltac:(lia)) as E3. set (v4 := v3 / 256) in *.
  pose proof (N.div_mod v4 256 ltac:(lia)) as E4. set (v5 := v4 / 256) in *.
  pose proof (N.div_mod v5 256 ltac:(lia)) as E5. set (v6 := v5 / 256) in *.
  pose proof (N.div_mod v6 256 ltac:(lia)) as E6. set (v7 := v6 / 256) in *.
  assert (v7 < 256) by lia. rewrite (N.mod_small v7 256) by assumption. lia.
Qed.
Lemma put8_other f p v o : ~ (p <= o < p + 8) -> put8 f p v o = f o.
Proof. intros H. unfold put8. destruct (N.leb_spec p o); cbn [andb]; [|reflexivity]. destruct (N.ltb_spec o (p + 8)); [lia|reflexivity]. Qed.

(** * Kernels *)
(** An image before the pointer is set *)
Record image (q : request) (L : list (N * N)) (e : N) (f : N -> N) : Prop := {
  im_stored : forall i o b, stored (q_evs q) i o = Some b -> exists p s, nth_error L i = Some (p, s) /\ o < s /\
     (~ pointer_at q i o -> f (p + o) = b);
  im_zero : forall o, o < e -> (forall i p s, nth_error L i = Some (p, s) -> ~ (p <= o < p + s)) -> f o = 0
}.
Definition offsets (q : request) (L : list (N * N)) : list N :=
  map (fun x => match nth_error L (fst x) with Some (p, _) => p + snd x | None => 0 end) (q_syms q).

Lemma resolve_ok base L syms : (forall k off, In (k, off) syms -> exists p size, nth_error L k = Some (p, size) /\ off < size) ->
  resolve (tell base L) syms =
  Some (map (fun x => base + match nth_error L (fst x) with Some (p, _) => p + snd x | None => 0 end) syms).
Proof.
  induction syms as [|[k off] r IH]; intros H; cbn [resolve map]; [reflexivity|].
  rewrite IH by (intros; apply H; now right). destruct (H k off (or_introl eq_refl)) as (p & s & E & _).
  unfold tell. rewrite nth_error_map, E. cbn [option_map fst snd]. rewrite E. do 2 f_equal. lia.
Qed.

Lemma Placed_chain l : forall e L e', Placed e l L e' -> chain L e'.
Proof.
  induction l as [|[s a] l IH]; intros e L e' H; inversion H; subst.
  - split; intros i; destruct i; discriminate.
  - split; [intros i q t E; eapply Placed_in in E; eauto; lia|].
    intros i j q t r u LT E F. destruct j as [|j]; [lia|]. destruct i as [|i]; cbn in E, F.
    + injection E as <- <-. eapply Placed_in in F; eauto. lia.
    + match goal with X : Placed _ l _ _ |- _ => apply (proj2 (IH _ _ _ X) i j q t r u) end; auto. lia.
Qed.

Lemma link_ok q L e f ptr table : legal q L e -> image q L e f -> addresses ptr table e (length (q_syms q)) ->
  exists k, link {| k_data := ptr; k_len := e; k_size := e; k_mem := f;
                    k_reloc := map (fun o => ptr + o) (offsets q L); k_table := table |} = Done k /\
    carries q L e k /\ image q L e (k_mem k) /\ k_data k = ptr /\ k_reloc k = map (fun o => ptr + o) (offsets q L) /\ k_size k = e.
Proof.
  intros (PL & IN & E0 & E1 & E2 & SY & CA) [I1 I2] (A1 & A2 & A3).
  pose proof (Placed_chain _ _ _ _ PL) as CH.
  assert (ALIGN : forall i p size align s, nth_error L i = Some (p, size) -> nth_error (secs (q_evs q)) i = Some (s, align) ->
    (eff align | page) -> (eff align | ptr + p)).
  { intros i p size align s EL ES EP. destruct (Placed_align _ _ _ _ PL _ _ _ _ _ EL ES) as [D _].
    apply N.divide_add_r; [exact (N.divide_trans _ _ _ EP A1)|exact D]. }
  assert (ENTRY : forall j i off p size, nth_error (q_syms q) j = Some (i, off) -> nth_error L i = Some (p, size) ->
    nth_error (map (fun o => ptr + o) (offsets q L)) j = Some (ptr + p + off)).
  { intros j i off p size EJ EL. unfold offsets. rewrite map_map, nth_error_map, EJ. cbn [option_map fst snd]. rewrite EL. f_equal. lia. }
  assert (LEN : length (map (fun o => ptr + o) (offsets q L)) = length (q_syms q)) by (unfold offsets; now rewrite !map_length).
  assert (CODE : forall g o rl, o < e -> code {| k_data := ptr; k_len := e; k_size := e; k_mem := g; k_reloc := rl; k_table := table |} (ptr + o) = Some (g o)).
  { intros g o rl O. unfold code. cbn [k_data k_len k_mem]. rewrite (proj2 (N.leb_le ptr (ptr + o))) by lia.
    rewrite (proj2 (N.ltb_lt (ptr + o) (ptr + e))) by lia. cbn [andb]. do 2 f_equal. lia. }
  unfold link. cbn [k_reloc k_data k_len k_size k_mem k_table].
  destruct (nth_error (q_syms q) 1) as [[k1 o1]|] eqn:S1.
  - destruct (CA k1 o1 eq_refl) as (p1 & s1 & L1 & F1). pose proof (ENTRY 1%nat k1 o1 p1 s1 S1 L1) as R1.
    pose proof (proj1 CH _ _ _ L1) as C1.
    remember (map (fun o => ptr + o) (offsets q L)) as rl eqn:RL.
    destruct rl as [|r0 [|r1 rl']]; try discriminate R1. cbn in R1. injection R1 as ->.
    rewrite (proj2 (N.leb_le ptr (ptr + p1 + o1))) by lia. replace (ptr + p1 + o1 - ptr) with (p1 + o1) by lia.
    rewrite (proj2 (N.leb_le (p1 + o1 + 8) e)) by lia. cbn [andb].
    assert (OTHER : forall i o p s, nth_error L i = Some (p, s) -> o < s -> ~ pointer_at q i o -> ~ (p1 + o1 <= p + o < p1 + o1 + 8)).
    { intros i o p s EL O NP X. destruct (Nat.lt_trichotomy i k1) as [LT|[->|LT]].
      - pose proof (proj2 CH _ _ _ _ _ _ LT EL L1). lia.
      - rewrite L1 in EL. injection EL as <- <-. apply NP. exists k1, o1. split; [exact S1|]. split; [reflexivity|lia].
      - pose proof (proj2 CH _ _ _ _ _ _ LT L1 EL). lia. }
    assert (IM : image q L e (put8 f (p1 + o1) (table + 8))).
    { split.
      - intros i o b ST. destruct (I1 i o b ST) as (p & s & EL & O & V). exists p, s. split; [exact EL|]. split; [exact O|].
        intros NP. rewrite put8_other by (eapply OTHER; eauto). auto.
      - intros o O NI. rewrite put8_other; [auto|]. intros X. apply (NI k1 p1 s1 L1). lia. }
    eexists. split; [reflexivity|]. split; [|cbn [k_mem k_data k_reloc k_size]; auto 10].
    split; cbn [k_size k_len k_data k_reloc].
    + auto.
    + intros i off b p size EL ST NP. destruct (im_stored _ _ _ _ IM i off b ST) as (p' & s' & EL' & O & V).
      rewrite EL in EL'. injection EL' as <- <-. pose proof (proj1 CH _ _ _ EL).
      replace (ptr + p + off) with (ptr + (p + off)) by lia. rewrite CODE by lia. f_equal. auto.
    + exact ALIGN.
    + intros o O NI. rewrite CODE by exact O. f_equal. now apply (im_zero _ _ _ _ IM).
    + exact ENTRY.
    + exact LEN.
    + intros i off p size n S1' EL. rewrite S1 in S1'. injection S1' as <- <-. rewrite L1 in EL. injection EL as <- <-.
      unfold callee. cbn [k_data k_len k_mem k_table k_reloc].
      rewrite (proj2 (N.leb_le ptr (ptr + p1 + o1))) by lia. rewrite (proj2 (N.leb_le (ptr + p1 + o1 + 8) (ptr + e))) by lia. cbn [andb].
      replace (ptr + p1 + o1 - ptr) with (p1 + o1) by lia. rewrite get8_put8 by lia.
      rewrite (proj2 (N.leb_le table (table + 8))) by lia. replace (table + 8 - table) with 8 by lia. reflexivity.
  - assert (IM : image q L e f) by (split; assumption).
    assert (LN : (length (q_syms q) <= 1)%nat) by (apply nth_error_None in S1; exact S1).
    remember (map (fun o => ptr + o) (offsets q L)) as rl eqn:RL.
    exists {| k_data := ptr; k_len := e; k_size := e; k_mem := f; k_reloc := rl; k_table := table |}.
    split; [destruct rl as [|r0 [|r1 rl']]; [reflexivity|reflexivity|cbn in LEN; lia]|].
    split; [|cbn [k_mem k_data k_reloc k_size]; auto 10]. split; cbn [k_size k_len k_data k_reloc].
    + auto.
    + intros i off b p size EL ST NP. destruct (I1 i off b ST) as (p' & s' & EL' & O & V).
      rewrite EL in EL'. injection EL' as <- <-. pose proof (proj1 CH _ _ _ EL).
      replace (ptr + p + off) with (ptr + (p + off)) by lia. rewrite CODE by lia. f_equal. auto.
    + exact ALIGN.
    + intros o O NI. rewrite CODE by exact O. f_equal. auto.
    + exact ENTRY.
    + exact LEN.
    + congruence.
Qed.

Lemma offsets_lt q L e : legal q L e -> forall o, In o (offsets q L) -> o < e.
Proof.
  intros (PL & _ & _ & _ & _ & SY & _) o I1. unfold offsets in I1. apply in_map_iff in I1 as ([k off] & <- & I1).
  destruct (SY _ _ I1) as (p & s & EL & O). cbn [fst snd]. rewrite EL. pose proof (proj1 (Placed_chain _ _ _ _ PL) _ _ _ EL). lia.
Qed.

Theorem compile_ok m q s L e : Good m -> legal q L e -> system q e s ->
  exists m' told k ptr, compile m q s = Done (m', told, k) /\ e_map s = Some ptr /\ same_layout L told /\ carries q L e k /\
    image q L e (k_mem k) /\ k_data k = ptr /\ k_reloc k = map (fun o => ptr + o) (offsets q L) /\ k_size k = e /\ Good m'.
Proof.
  intros G LG ((a & junk & EH & PA & AA) & ptr & EM & AD). pose proof LG as (PL & IN & E0 & E1 & E2 & SY & CA).
  unfold compile. rewrite EH. destruct (prepare_ok m (q_len q) a junk G ltac:(lia) E2 PA) as (m1 & base & -> & H1 & O1 & PB & S1 & S2).
  destruct (events_ok (q_evs q) [] m1 [] base L e H1 S2) as (m2 & R & H2 & O2 & S3); [now rewrite O1|exact IN|lia|].
  change (tell base []) with (@nil (N * N)) in R. rewrite R. cbn [app] in *.
  destruct H2 as [F1 F2 F3 F4 F5 F6 F7]. rewrite (resolve_ok base L (q_syms q) SY), F2, F4, EM, O2, F1, F3, S3.
  rewrite (proj2 (N.eqb_neq e 0)) by lia. cbn [negb orb]. rewrite (proj2 (N.ltb_ge (m_size m1) e)) by lia.
  assert (W : w32 e = e) by (apply N.mod_small; lia). rewrite W. rewrite map_map.
  assert (IM : image q L e (m_mem m2)).
  { split.
    - intros i o b ST. destruct (F7 _ _ _ ST) as (p & t & EL & O & V). exists p, t. auto.
    - rewrite O2 in F6. exact F6. }
  destruct (link_ok q L e (m_mem m2) ptr (e_table s) LG IM AD) as (k & LK & C1 & C2 & C3 & C4 & C5).
  replace (map _ (q_syms q)) with (map (fun o => ptr + o) (offsets q L)); cycle 1.
  { unfold offsets. rewrite map_map. apply map_ext_in. intros [i off] I1. cbn [fst snd].
    destruct (SY _ _ I1) as (p & t & EL & O). rewrite EL. pose proof (proj1 (Placed_chain _ _ _ _ PL) _ _ _ EL).
    destruct AD as (_ & AD & _). unfold w64. rewrite N.mod_small; lia. }
  rewrite LK. exists m2, (tell base L), k, ptr. split; [reflexivity|]. split; [reflexivity|]. split; [exists base; auto|].
  do 5 (split; [assumption|]). unfold Good. rewrite F4, F3, S3, F2, F1. split; [reflexivity|]. split; [reflexivity|]. split; [exact S2|].
  right. exists base. auto.
Qed.

Theorem served_ok l : forall m, Good m -> served m l.
Proof.
  induction l as [|[q s] l IH]; intros m G; cbn [served]; [exact I|]. intros L e LG SY.
  destruct (compile_ok m q s L e G LG SY) as (m' & told & k & ptr & E1 & E2 & E3 & E4 & E5 & E6 & E7 & E8 & E9).
  exists m', told, k. rewrite E2. auto 10.
Qed.
Lemma Good_initial : Good initial.
Proof. unfold Good. cbn. repeat split; auto; lia. Qed.

(** * Kernels on disk *)
Theorem reload_ok m q s L e ptr table m' told k : Good m -> legal q L e -> system q e s -> compile m q s = Done (m', told, k) ->
  addresses ptr table e (length (q_syms q)) ->
  exists k', kernel_load (kernel_write k) ptr table = Done k' /\ carries q L e k' /\ k_data k' = ptr.
Proof.
  intros G LG SY C AD. destruct (compile_ok m q s L e G LG SY) as (m1 & t1 & k1 & p1 & E1 & E2 & E3 & E4 & E5 & E6 & E7 & E8 & E9).
  rewrite E1 in C. injection C as <- <- <-. unfold kernel_load, kernel_write. cbn [f_size f_mem f_reloc]. rewrite E8, E7, E6.
  pose proof LG as (_ & _ & E0 & _). rewrite (proj2 (N.eqb_neq e 0)) by lia. rewrite !map_map.
  destruct SY as (_ & ptr1 & EM & A1 & A2 & _). rewrite E2 in EM. injection EM as ->. pose proof AD as (_ & A4 & _).
  rewrite (map_ext_in _ (fun o => ptr + o)); cycle 1.
  { intros o I1. pose proof (offsets_lt q L e LG o I1). unfold w64. replace (ptr1 + o + 2 ^ 64 - ptr1) with (o + 1 * 2 ^ 64) by lia.
    rewrite N.mod_add by discriminate. rewrite (N.mod_small o) by lia. apply N.mod_small. lia. }
  destruct (link_ok q L e (k_mem k1) ptr table LG E5 AD) as (k' & LK & C1 & C2 & C3 & _). exists k'. auto.
Qed.

(** Sections of a layout do not overlap *)
Theorem layout_disjoint l L e i j p s q t : Placed 0 l L e -> i <> j ->
  nth_error L i = Some (p, s) -> nth_error L j = Some (q, t) -> p + s <= q \/ q + t <= p.
Proof.
  intros PL NE EI1 EJ. pose proof (Placed_chain _ _ _ _ PL) as CH. destruct (Nat.lt_trichotomy i j) as [LT|[E|LT]]; [|contradiction|].
  - left. exact (proj2 CH _ _ _ _ _ _ LT EI1 EJ).
  - right. exact (proj2 CH _ _ _ _ _ _ LT EJ EI1).
Qed.
