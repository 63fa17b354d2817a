(** Invariant of the variable store and its behaviour under elementary changes. *)
From Verif Require Import Base FreeSlots_Model FreeSlots_Spec FreeSlots_Proofs Var_Model Var_Spec.
Local Open Scope N_scope.

(** ** Sums *)
Fixpoint sumn (f : N -> N) (k : nat) : N :=
  match k with O => 0 | S k' => sumn f k' + f (N.of_nat k') end.

Lemma sumn_ext f g k : (forall j, j < N.of_nat k -> f j = g j) -> sumn f k = sumn g k.
Proof.
  induction k as [|k IH]; intros H; [reflexivity|]. cbn [sumn].
  rewrite (H (N.of_nat k)) by lia. rewrite IH; [reflexivity|]. intros; apply H; lia.
Qed.
Lemma sumn_upd f g i k : i < N.of_nat k -> (forall j, j < N.of_nat k -> j <> i -> f j = g j) ->
  sumn f k + g i = sumn g k + f i.
Proof.
  induction k as [|k IH]; intros Hi H; [lia|]. cbn [sumn].
  destruct (N.eq_dec i (N.of_nat k)) as [->|Hne].
  - rewrite (sumn_ext f g k); [lia|]. intros; apply H; lia.
  - rewrite (H (N.of_nat k)) by lia.
    assert (E : sumn f k + g i = sumn g k + f i) by (apply IH; [lia|]; intros; apply H; lia). lia.
Qed.
Lemma sumn_ge f i k : i < N.of_nat k -> f i <= sumn f k.
Proof.
  induction k as [|k IH]; intros Hi; [lia|]. cbn [sumn].
  destruct (N.eq_dec i (N.of_nat k)) as [->|]; [lia|]. assert (f i <= sumn f k) by (apply IH; lia). lia.
Qed.
Lemma sumn_le f c k : (forall j, j < N.of_nat k -> f j <= c) -> sumn f k <= c * N.of_nat k.
Proof.
  induction k as [|k IH]; intros H; cbn [sumn]; [lia|].
  assert (sumn f k <= c * N.of_nat k) by (apply IH; intros; apply H; lia).
  assert (f (N.of_nat k) <= c) by (apply H; lia). lia.
Qed.
Lemma sumn_pos f k : 0 < sumn f k -> exists j, j < N.of_nat k /\ 0 < f j.
Proof.
  induction k as [|k IH]; cbn [sumn]; intros H; [lia|].
  destruct (N.eq_dec (f (N.of_nat k)) 0) as [E|E].
  - destruct IH as (j & ? & ?); [lia|]. exists j. lia.
  - exists (N.of_nat k). lia.
Qed.

(** ** Occurrences *)
Definition occ (l : list N) (j : N) : N := N.of_nat (count_occ N.eq_dec l j).
Lemma occ_cons x l j : occ (x :: l) j = (if j =? x then 1 else 0) + occ l j.
Proof.
  unfold occ; cbn [count_occ]. destruct (N.eq_dec x j) as [->|Hne].
  - rewrite N.eqb_refl. lia.
  - destruct (N.eqb_spec j x); [congruence|lia].
Qed.
Lemma occ_nil j : occ [] j = 0. Proof. reflexivity. Qed.
Lemma occ_app a b j : occ (a ++ b) j = occ a j + occ b j.
Proof. unfold occ. rewrite count_occ_app. lia. Qed.
Lemma occ_pos l j : 0 < occ l j <-> In j l.
Proof. unfold occ. rewrite (count_occ_In N.eq_dec). lia. Qed.
Lemma occ_le l j : occ l j <= N.of_nat (length l).
Proof. unfold occ. pose proof (count_occ_bound N.eq_dec j l). lia. Qed.
Lemma occ_remove1 i l j : In i l -> occ (remove1 i l) j + (if j =? i then 1 else 0) = occ l j.
Proof.
  induction l as [|x r IH]; [easy|]. cbn [remove1]. intros H. destruct (N.eqb_spec x i) as [->|Hne].
  - rewrite occ_cons. lia.
  - destruct H as [|H]; [congruence|]. rewrite !occ_cons, <- (IH H). lia.
Qed.

(** ** Views of the state *)
Definition V (s : st) (j : N) : var := nth (N.to_nat j) (vars s) var0.
Definition sz (s : st) : N := N.of_nat (length (vars s)).

Lemma vget_V s i : i < sz s -> vget s i = Some (V s i).
Proof. unfold sz, vget, V. intros H. apply nth_error_nth'. lia. Qed.
Lemma vget_lt s i v : vget s i = Some v -> i < sz s /\ v = V s i.
Proof.
  unfold sz, vget, V. intros H. assert (N.to_nat i < length (vars s))%nat.
  { apply nth_error_Some. congruence. }
  split; [lia|]. now rewrite (nth_error_nth _ _ var0 H).
Qed.
Lemma V_oob s j : sz s <= j -> V s j = var0.
Proof. unfold sz, V. intros. apply nth_overflow. lia. Qed.

Definition fupd {A} (f : N -> A) (i : N) (v : A) : N -> A := fun j => if j =? i then v else f j.
Lemma fupd_eq {A} (f : N -> A) i v : fupd f i v i = v.
Proof. unfold fupd. now rewrite N.eqb_refl. Qed.
Lemma fupd_ne {A} (f : N -> A) i v j : j <> i -> fupd f i v j = f j.
Proof. unfold fupd. intros. destruct (N.eqb_spec j i); congruence. Qed.

Lemma vset_spec s i v : i < sz s ->
  exists s', vset s i v = Some s' /\ (forall j, V s' j = fupd (V s) i v j) /\
    length (vars s') = length (vars s) /\ unused s' = unused s /\ lvn s' = lvn s /\
    tscope s' = tscope s /\ sctr s' = sctr s /\ heap s' = heap s.
Proof.
  unfold sz, vset, upd. intros H. destruct (Nat.ltb_spec (N.to_nat i) (length (vars s))); [|lia].
  cbn [bind]. eexists; split; [reflexivity|]. cbn. repeat split; try apply set_nth_length.
  intros j. unfold V, fupd; cbn. destruct (N.eqb_spec j i) as [->|Hne].
  - now apply nth_set_nth_eq.
  - apply nth_set_nth_neq. lia.
Qed.

(** ** Counting part *)
Definition cnt (v : var) (j : N) : N := if v_wptr v then 0 else occ (v_dep v) j.
Definition cnt_se (v : var) (j : N) : N := if v_wptr v then occ (v_dep v) j else 0.
Definition refs (f : N -> var) (al : N -> bool) (n : nat) (j : N) : N :=
  sumn (fun k => if al k then cnt (f k) j else 0) n.
Definition refs_se (f : N -> var) (al : N -> bool) (n : nat) (j : N) : N :=
  sumn (fun k => if al k then cnt_se (f k) j else 0) n.

Record cnts (f : N -> var) (al : N -> bool) (n : nat) (own ownse : N -> N) (todo : list N) : Prop := {
  c_range : forall j, al j = true -> 0 < j < N.of_nat n;
  c_free : forall j, al j = false -> v_rc (f j) = 0 /\ v_se (f j) = 0;
  c_own0 : forall j, j <> 0 -> al j = false -> own j = 0 /\ ownse j = 0;
  c_rc : forall j, al j = true -> v_rc (f j) = own j + refs f al n j;
  c_se : forall j, al j = true -> v_se (f j) = ownse j + refs_se f al n j;
  c_nd : NoDup todo;
  c_todo : forall j, In j todo -> al j = true /\ v_rc (f j) = 0 /\ v_se (f j) = 0;
  c_live : forall j, al j = true -> In j todo \/ 0 < v_rc (f j) \/ 0 < v_se (f j) }.

(** The attributes that reference counting does not change. *)
Definition core (v : var) : var := set_counter (set_se (set_rc v 0) 0) 0.

Lemma core_fields v w : core v = core w ->
  v_scope v = v_scope w /\ v_dep v = v_dep w /\ v_lit v = v_lit w /\ v_size v = v_size w /\
  v_kind v = v_kind w /\ v_backend v = v_backend w /\ v_type v = v_type w /\ v_wptr v = v_wptr w /\
  v_written v = v_written w /\ v_retain v = v_retain w /\ v_array v = v_array w /\
  v_coop v = v_coop w /\ v_alen v = v_alen w.
Proof. destruct v, w. unfold core. cbn. intros E. injection E as; subst. repeat split. Qed.

Lemma cnt_core v w j : core v = core w -> cnt v j = cnt w j.
Proof. intros E; apply core_fields in E. unfold cnt. now destruct E as (_&->&_&_&_&_&_&->&_). Qed.
Lemma cnt_se_core v w j : core v = core w -> cnt_se v j = cnt_se w j.
Proof. intros E; apply core_fields in E. unfold cnt_se. now destruct E as (_&->&_&_&_&_&_&->&_). Qed.
Lemma key_core v w : core v = core w -> key_of v = key_of w.
Proof.
  intros E; apply core_fields in E. destruct E as (E1&E2&E3&E4&E5&E6&E7&E8&E9&_&Ea&Eb&Ec).
  unfold key_of, packed. now rewrite E1,E2,E3,E4,E5,E6,E7,E8,E9,Ea,Eb,Ec.
Qed.
Lemma eval_core v w : core v = core w -> is_evaluated v = is_evaluated w.
Proof. intros E; apply core_fields in E. unfold is_evaluated. now destruct E as (_&_&_&_&->&_). Qed.

Lemma refs_ext f g al n j : (forall k, al k = true -> core (f k) = core (g k)) -> refs f al n j = refs g al n j.
Proof.
  intros H. apply sumn_ext. intros k _. destruct (al k) eqn:E; [|reflexivity]. apply cnt_core; auto.
Qed.
Lemma refs_se_ext f g al n j : (forall k, al k = true -> core (f k) = core (g k)) -> refs_se f al n j = refs_se g al n j.
Proof.
  intros H. apply sumn_ext. intros k _. destruct (al k) eqn:E; [|reflexivity]. apply cnt_se_core; auto.
Qed.

(** Adding/removing one variable. *)
Lemma refs_alloc f al n i j : i < N.of_nat n -> al i = false ->
  refs f (fupd al i true) n j = refs f al n j + cnt (f i) j.
Proof.
  intros Hi Ha. unfold refs.
  pose proof (sumn_upd (fun k => if fupd al i true k then cnt (f k) j else 0)
                       (fun k => if al k then cnt (f k) j else 0) i n Hi) as E.
  cbn beta in E. rewrite fupd_eq, Ha in E. rewrite N.add_0_r in E. apply E.
  intros k _ Hk. now rewrite fupd_ne.
Qed.
Lemma refs_se_alloc f al n i j : i < N.of_nat n -> al i = false ->
  refs_se f (fupd al i true) n j = refs_se f al n j + cnt_se (f i) j.
Proof.
  intros Hi Ha. unfold refs_se.
  pose proof (sumn_upd (fun k => if fupd al i true k then cnt_se (f k) j else 0)
                       (fun k => if al k then cnt_se (f k) j else 0) i n Hi) as E.
  cbn beta in E. rewrite fupd_eq, Ha in E. rewrite N.add_0_r in E. apply E.
  intros k _ Hk. now rewrite fupd_ne.
Qed.
Lemma refs_free f al n i j : i < N.of_nat n -> al i = true ->
  refs f (fupd al i false) n j + cnt (f i) j = refs f al n j.
Proof.
  intros Hi Ha. unfold refs.
  pose proof (sumn_upd (fun k => if fupd al i false k then cnt (f k) j else 0)
                       (fun k => if al k then cnt (f k) j else 0) i n Hi) as E.
  cbn beta in E. rewrite fupd_eq, Ha in E. rewrite N.add_0_r in E. apply E.
  intros k _ Hk. now rewrite fupd_ne.
Qed.
Lemma refs_se_free f al n i j : i < N.of_nat n -> al i = true ->
  refs_se f (fupd al i false) n j + cnt_se (f i) j = refs_se f al n j.
Proof.
  intros Hi Ha. unfold refs_se.
  pose proof (sumn_upd (fun k => if fupd al i false k then cnt_se (f k) j else 0)
                       (fun k => if al k then cnt_se (f k) j else 0) i n Hi) as E.
  cbn beta in E. rewrite fupd_eq, Ha in E. rewrite N.add_0_r in E. apply E.
  intros k _ Hk. now rewrite fupd_ne.
Qed.
(** Replacing one variable. *)
Lemma refs_modify f al n i w j : i < N.of_nat n -> al i = true ->
  refs (fupd f i w) al n j + cnt (f i) j = refs f al n j + cnt w j.
Proof.
  intros Hi Ha. unfold refs.
  pose proof (sumn_upd (fun k => if al k then cnt (fupd f i w k) j else 0)
                       (fun k => if al k then cnt (f k) j else 0) i n Hi) as E.
  cbn beta in E. rewrite fupd_eq, Ha in E. apply E.
  intros k _ Hk. now rewrite fupd_ne.
Qed.
Lemma refs_se_modify f al n i w j : i < N.of_nat n -> al i = true ->
  refs_se (fupd f i w) al n j + cnt_se (f i) j = refs_se f al n j + cnt_se w j.
Proof.
  intros Hi Ha. unfold refs_se.
  pose proof (sumn_upd (fun k => if al k then cnt_se (fupd f i w k) j else 0)
                       (fun k => if al k then cnt_se (f k) j else 0) i n Hi) as E.
  cbn beta in E. rewrite fupd_eq, Ha in E. apply E.
  intros k _ Hk. now rewrite fupd_ne.
Qed.
Lemma refs_grow f al n j : al (N.of_nat n) = false -> refs f al (S n) j = refs f al n j.
Proof. intros E. unfold refs; cbn [sumn]. rewrite E. lia. Qed.
Lemma refs_se_grow f al n j : al (N.of_nat n) = false -> refs_se f al (S n) j = refs_se f al n j.
Proof. intros E. unfold refs_se; cbn [sumn]. rewrite E. lia. Qed.

(** ** Static part *)
Definition wf (v : var) : Prop :=
  length (v_dep v) = 4%nat /\ 0 < v_kind v < 2 ^ 7 /\ v_backend v < 4 /\ v_type v < 32 /\
  v_alen v < 2 ^ 16 /\ v_size v < 2 ^ 32 /\ v_lit v < 2 ^ 64.

Record stat (f : N -> var) (al : N -> bool) (m : list (key * N)) (h : list (N * list N))
            (hx : list N) (ts : list N) (ctr : N) : Prop := {
  s_wf : forall j, al j = true -> wf (f j);
  s_dep : forall j d, al j = true -> In d (v_dep (f j)) -> d <> 0 -> al d = true;
  s_rank : exists rk : N -> N, forall j d, al j = true -> In d (v_dep (f j)) -> d <> 0 -> rk d < rk j;
  s_wp : forall j, al j = true -> v_wptr (f j) = true ->
           v_kind (f j) = K_Literal /\ exists d, v_dep (f j) = [0; 0; 0; d] /\ d <> 0 /\ is_evaluated (f d) = true;
  s_ret : forall j, al j = true -> v_retain (f j) = true ->
           is_evaluated (f j) = true /\ exists d, v_dep (f j) = [0; 0; 0; d] /\ d <> 0 /\
           is_evaluated (f d) = true /\ v_lit (f d) = v_lit (f j) /\ v_size (f j) <= v_size (f d);
  s_lnd : NoDup (map fst m);
  s_lvn : forall k i, In (k, i) m -> al i = true /\ is_evaluated (f i) = false /\ key_of (f i) = k;
  s_hnd : NoDup (map fst h);
  s_h0 : ~ In 0 (map fst h);
  s_hown : forall j, al j = true -> is_evaluated (f j) = true -> v_retain (f j) = false ->
           ~ In (v_lit (f j)) hx /\ exists c, In (v_lit (f j), c) h /\ v_size (f j) <= N.of_nat (length c);
  s_hinj : forall j k, al j = true -> is_evaluated (f j) = true -> v_retain (f j) = false ->
           al k = true -> is_evaluated (f k) = true -> v_retain (f k) = false ->
           v_lit (f j) = v_lit (f k) -> j = k;
  s_hall : forall p, In p (map fst h) -> In p hx \/
           exists j, al j = true /\ is_evaluated (f j) = true /\ v_retain (f j) = false /\ v_lit (f j) = p;
  s_scope : forall j, al j = true -> v_scope (f j) <= ctr;
  s_ts : forall x, In x ts -> x <= ctr;
  s_ctr : 1 <= ctr < 2 ^ 32 }.

Lemma stat_ext f g al m h hx ts ctr :
  (forall j, al j = true -> core (f j) = core (g j)) -> stat f al m h hx ts ctr -> stat g al m h hx ts ctr.
Proof.
  intros E S.
  assert (D : forall j, al j = true -> v_dep (g j) = v_dep (f j)).
  { intros j Hj. specialize (E j Hj). apply core_fields in E. now destruct E as (_&->&_). }
  assert (Ev : forall j, al j = true -> is_evaluated (g j) = is_evaluated (f j)).
  { intros j Hj. symmetry. apply eval_core; auto. }
  assert (X : forall j, al j = true -> v_lit (g j) = v_lit (f j) /\ v_size (g j) = v_size (f j) /\
     v_kind (g j) = v_kind (f j) /\ v_wptr (g j) = v_wptr (f j) /\ v_retain (g j) = v_retain (f j) /\
     v_scope (g j) = v_scope (f j)).
  { intros j Hj. specialize (E j Hj). apply core_fields in E.
    destruct E as (E1&E2&E3&E4&E5&E6&E7&E8&E9&Ex&_). repeat split; congruence. }
  constructor.
  - intros j Hj. pose proof (s_wf _ _ _ _ _ _ _ S j Hj) as W. specialize (E j Hj). apply core_fields in E.
    destruct E as (E1&E2&E3&E4&E5&E6&E7&E8&E9&_&Ea&Eb&Ec). unfold wf in *.
    now rewrite <- E2, <- E3, <- E4, <- E5, <- E6, <- E7, <- Ec.
  - intros j d Hj Hd. rewrite D in Hd by auto. eapply (s_dep _ _ _ _ _ _ _ S); eauto.
  - destruct (s_rank _ _ _ _ _ _ _ S) as (rk & R). exists rk. intros j d Hj Hd. rewrite D in Hd by auto. auto.
  - intros j Hj Hw. destruct (X j Hj) as (_&_&Ek&Ew&_). rewrite Ew in Hw.
    destruct (s_wp _ _ _ _ _ _ _ S j Hj Hw) as (K & d & Hd & Hn & He).
    rewrite Ek. split; [exact K|]. exists d. rewrite D by auto. repeat split; auto.
    rewrite Ev; auto. apply (s_dep _ _ _ _ _ _ _ S j); auto. rewrite Hd. simpl; auto.
  - intros j Hj Hr. destruct (X j Hj) as (El&Es&_&_&Er&_). rewrite Er in Hr.
    destruct (s_ret _ _ _ _ _ _ _ S j Hj Hr) as (K & d & Hd & Hn & He & Hl & Hs).
    rewrite Ev by auto. split; [exact K|]. exists d.
    assert (Ad : al d = true) by (apply (s_dep _ _ _ _ _ _ _ S j); auto; rewrite Hd; simpl; auto).
    destruct (X d Ad) as (El'&Es'&_). rewrite D, Ev, El, Es, El', Es' by auto. auto.
  - apply S.
  - intros k i Hi. destruct (s_lvn _ _ _ _ _ _ _ S k i Hi) as (A & B & C).
    rewrite Ev by auto. repeat split; auto. rewrite <- C. symmetry. apply key_core; auto.
  - apply S.
  - apply S.
  - intros j Hj He Hr. destruct (X j Hj) as (El&Es&_&_&Er&_). rewrite Ev in He by auto. rewrite Er in Hr.
    rewrite El, Es. apply (s_hown _ _ _ _ _ _ _ S); auto.
  - intros j k Hj Hje Hjr Hk Hke Hkr. destruct (X j Hj) as (El&_&_&_&Er&_). destruct (X k Hk) as (El'&_&_&_&Er'&_).
    rewrite Ev in Hje, Hke by auto. rewrite El, El'. apply (s_hinj _ _ _ _ _ _ _ S); congruence.
  - intros p Hp. destruct (s_hall _ _ _ _ _ _ _ S p Hp) as [|(j & A & B & C & Hl)]; [auto|right].
    exists j. destruct (X j A) as (El&_&_&_&Er&_). rewrite Ev, Er, El; auto.
  - intros j Hj. destruct (X j Hj) as (_&_&_&_&_&->). apply (s_scope _ _ _ _ _ _ _ S); auto.
  - apply S.
  - apply S.
Qed.

(** ** The invariant *)
Definition slots (s : st) (al : N -> bool) : Prop :=
  exists F, fs_rel (unused s) F /\ forall j, In j F <-> 0 < j < sz s /\ al j = false.

Record INV (s : st) (al : N -> bool) (own ownse : N -> N) (todo hx : list N) : Prop := {
  I_cnt : cnts (V s) al (length (vars s)) own ownse todo;
  I_stat : stat (V s) al (lvn s) (heap s) hx (tscope s) (sctr s);
  I_slots : slots s al;
  I_len : 0 < sz s < 2 ^ 32 }.

Lemma INV_init : INV st_init (fun _ => false) (fun _ => 0) (fun _ => 0) [] [].
Proof.
  constructor.
  - constructor; try easy.
    + intros j _. unfold V; cbn. destruct (N.to_nat j) as [|[|]]; cbn; auto.
    + constructor.
  - constructor; try easy.
    + exists (fun _ => 0). easy.
    + constructor.
    + constructor.
  - exists []. split; [apply fs_rel_init|]. intros j. unfold sz; cbn. split; [easy|]. lia.
  - unfold sz; cbn. lia.
Qed.

Lemma refs_le f al n j : (forall k, al k = true -> length (v_dep (f k)) = 4%nat) -> refs f al n j <= 4 * N.of_nat n.
Proof.
  intros H. apply sumn_le. intros k _. destruct (al k) eqn:E; [|lia]. unfold cnt.
  destruct (v_wptr (f k)); [lia|]. pose proof (occ_le (v_dep (f k)) j). rewrite (H k E) in *. lia.
Qed.

Lemma rc_bound s al own ownse todo hx i : INV s al own ownse todo hx -> al i = true ->
  v_rc (V s i) <= own i + 4 * sz s.
Proof.
  intros I Hi. rewrite (c_rc _ _ _ _ _ _ (I_cnt _ _ _ _ _ _ I) i Hi).
  pose proof (refs_le (V s) al (length (vars s)) i) as H. unfold sz.
  assert (refs (V s) al (length (vars s)) i <= 4 * N.of_nat (length (vars s))); [|lia].
  apply H. intros k Hk. apply (s_wf _ _ _ _ _ _ _ (I_stat _ _ _ _ _ _ I) k Hk).
Qed.

Lemma al_range s al own ownse todo hx i : INV s al own ownse todo hx -> al i = true -> 0 < i < sz s.
Proof. intros I. apply (c_range _ _ _ _ _ _ (I_cnt _ _ _ _ _ _ I)). Qed.

Lemma al_jitc s al own ownse hx i : INV s al own ownse [] hx -> al i = true ->
  jitc_var s i = Some (V s i) /\ referenced (V s i) = true.
Proof.
  intros I Hi. pose proof (al_range _ _ _ _ _ _ _ I Hi).
  assert (R : referenced (V s i) = true).
  { unfold referenced. destruct (c_live _ _ _ _ _ _ (I_cnt _ _ _ _ _ _ I) i Hi) as [[]|[|]]; lia. }
  split; [|exact R]. unfold jitc_var. destruct (N.eqb_spec i 0); [lia|].
  rewrite vget_V by tauto. cbn [bind]. now rewrite R.
Qed.

Lemma live_al s al own ownse hx i : INV s al own ownse [] hx -> (live s i <-> al i = true).
Proof.
  intros I. split.
  - intros (Hn & v & Hv & R). apply vget_lt in Hv as (Hlt & ->).
    destruct (al i) eqn:E; auto. exfalso. destruct (c_free _ _ _ _ _ _ (I_cnt _ _ _ _ _ _ I) i E). lia.
  - intros Hi. pose proof (al_range _ _ _ _ _ _ _ I Hi). split; [lia|]. exists (V s i).
    split; [apply vget_V; tauto|]. destruct (c_live _ _ _ _ _ _ (I_cnt _ _ _ _ _ _ I) i Hi) as [[]|]; auto.
Qed.
