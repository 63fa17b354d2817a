(** Creation of variables. *)
From Verif Require Import Base FreeSlots_Model FreeSlots_Spec FreeSlots_Proofs Var_Model Var_Spec Var_Inv Var_Count Var_Free.
Local Open Scope N_scope.

(** From [s] to [s'] variables may have been created, and no other variable changed. *)
Record grows (s : st) (al : N -> bool) (s' : st) (al' : N -> bool) : Prop := {
  gr_al : forall j, al j = true -> al' j = true;
  gr_core : forall j, al j = true -> core (V s' j) = core (V s j);
  gr_counter : forall j, v_counter (V s' j) = v_counter (V s j);
  gr_lvn : forall k i, In (k, i) (lvn s) -> In (k, i) (lvn s');
  gr_heap : forall p c, In (p, c) (heap s) -> In (p, c) (heap s');
  gr_ts : tscope s' = tscope s;
  gr_sctr : sctr s' = sctr s;
  gr_len : sz s <= sz s' }.

Lemma grows_counts s s' al : counts_only s s' -> grows s al s' al.
Proof.
  intros C. constructor; try apply C; auto.
  - intros j _. apply C.
  - intros k i. now rewrite (co_lvn _ _ C).
  - intros p c. now rewrite (co_heap _ _ C).
  - unfold sz. rewrite (co_len _ _ C). lia.
Qed.
Lemma grows_refl s al : grows s al s al.
Proof. apply grows_counts, counts_only_refl. Qed.
Lemma grows_trans s1 a1 s2 a2 s3 a3 : grows s1 a1 s2 a2 -> grows s2 a2 s3 a3 -> grows s1 a1 s3 a3.
Proof.
  intros A B. constructor.
  - intros j Hj. now apply B, A.
  - intros j Hj. rewrite (gr_core _ _ _ _ B j); [now apply A|now apply A].
  - intros j. rewrite (gr_counter _ _ _ _ B). apply A.
  - intros k i H. now apply B, A.
  - intros k i H. now apply B, A.
  - rewrite (gr_ts _ _ _ _ B). apply A.
  - rewrite (gr_sctr _ _ _ _ B). apply A.
  - pose proof (gr_len _ _ _ _ A). pose proof (gr_len _ _ _ _ B). lia.
Qed.

(** ** Memory *)
Lemma mem_alloc_ok s al own ownse todo hx p c :
  INV s al own ownse todo hx -> fresh s p ->
  mem_alloc s p c = Some (with_heap s ((p, c) :: heap s)) /\
  INV (with_heap s ((p, c) :: heap s)) al own ownse todo (p :: hx) /\
  grows s al (with_heap s ((p, c) :: heap s)) al.
Proof.
  intros I (P0 & P64 & Pn). unfold mem_alloc. destruct (N.eqb_spec p 0); [congruence|].
  pose proof (proj2 (find_heap_none p (heap s)) Pn) as ->. split; [reflexivity|].
  pose proof (I_stat _ _ _ _ _ _ I) as S. split.
  - constructor; try apply I. cbn [lvn heap tscope sctr with_heap].
    change (V (with_heap s ((p, c) :: heap s))) with (V s). constructor; try apply S.
    + cbn. constructor; [exact Pn|apply S].
    + cbn. intros [|H]; [congruence|]. now apply (s_h0 _ _ _ _ _ _ _ S) in H.
    + intros j Hj He Hr. destruct (s_hown _ _ _ _ _ _ _ S j Hj He Hr) as (A & c' & B & D). split.
      * intros [E|H]; [|auto]. apply Pn. rewrite E. now apply (in_map fst) in B.
      * exists c'. split; [now right|exact D].
    + cbn. intros q [<-|H]; [left; now left|]. destruct (s_hall _ _ _ _ _ _ _ S q H); auto.
  - constructor; try reflexivity; auto.
    intros q d H. now right.
Qed.

(** ** The slot of a new variable *)
Lemma acquire_ok s e al own ownse hx :
  INV s al own ownse [] hx -> sz s + 1 < 2 ^ 32 ->
  exists s1 i b,
    (if fs_empty (unused s) || negb (e_reuse e)
     then Some (with_vars s (vars s ++ [var0]), u32 (N.of_nat (length (vars s))), false)
     else let? y := fs_pop (unused s) in Some (with_unused s (snd y), fst y, true)) = Some (s1, i, b) /\
    al i = false /\ 0 < i < sz s1 /\ (forall j, V s1 j = V s j) /\
    lvn s1 = lvn s /\ tscope s1 = tscope s /\ sctr s1 = sctr s /\ heap s1 = heap s /\
    (sz s1 = sz s \/ sz s1 = sz s + 1 /\ i = sz s) /\
    (b = false -> vars s1 = vars s ++ [var0] /\ unused s1 = unused s) /\
    (b = true -> vars s1 = vars s /\
       exists F, fs_rel (unused s1) F /\ ~ In i F /\ forall j, In j F <-> 0 < j < sz s /\ al j = false /\ j <> i) /\
    slots s1 (fupd al i true).
Proof.
  intros I Hs. pose proof (I_cnt _ _ _ _ _ _ I) as C. pose proof (I_len _ _ _ _ _ _ I) as Hl.
  destruct (I_slots _ _ _ _ _ _ I) as (F & HF & HFin).
  destruct (fs_empty (unused s) || negb (e_reuse e)) eqn:E.
  - unfold sz in *. rewrite u32_small by lia.
    assert (Ha : al (N.of_nat (length (vars s))) = false).
    { destruct (al (N.of_nat (length (vars s)))) eqn:Ea; auto. apply (c_range _ _ _ _ _ _ C) in Ea. lia. }
    eexists _, _, _. split; [reflexivity|]. split; [exact Ha|]. cbn.
    rewrite app_length. cbn [length].
    split; [lia|]. split.
    { intros j. unfold V. cbn. destruct (Nat.lt_ge_cases (N.to_nat j) (length (vars s))).
      - now apply app_nth1.
      - rewrite (nth_overflow (vars s)) by lia. rewrite app_nth2 by lia.
        destruct (N.to_nat j - length (vars s))%nat as [|[|]]; reflexivity. }
    repeat (split; [reflexivity|]). split; [right; lia|]. split; [auto|]. split; [easy|].
    exists F. split; [exact HF|]. intros j. rewrite HFin. unfold sz. cbn. rewrite app_length. cbn [length].
    unfold fupd. destruct (N.eqb_spec j (N.of_nat (length (vars s)))).
    + split; [lia|]. now intros (_ & ?).
    + split; intros (? & ?); split; auto; lia.
  - apply orb_false_iff in E as (E1 & E2). unfold fs_empty in E1. rewrite (r_count _ _ HF) in E1.
    destruct F as [|x F]; [discriminate|].
    destruct (fs_pop_rel _ _ _ HF) as (u & Ep & HF'). rewrite Ep. cbn [bind fst snd].
    assert (Hx : 0 < x < sz s /\ al x = false) by (apply HFin; now left).
    assert (Hnx : ~ In x F).
    { pose proof (r_sorted _ _ HF) as So. inversion So as [|? ? _ Hlt]; subst.
      intros H. rewrite Forall_forall in Hlt. specialize (Hlt x H). lia. }
    exists (with_unused s u), x, true. split; [reflexivity|]. split; [tauto|].
    split; [tauto|]. repeat (split; [reflexivity|]). split; [now left|]. split; [easy|].
    assert (HFin' : forall j, In j F <-> 0 < j < sz s /\ al j = false /\ j <> x).
    { intros j. specialize (HFin j). cbn in HFin. split.
      - intros H. assert (j <> x) by congruence. tauto.
      - intros (A & B & D). destruct HFin as [_ HFin]. destruct (HFin (conj A B)); [congruence|auto]. }
    split.
    + intros _. split; [reflexivity|]. exists F. split; [exact HF'|]. split; [exact Hnx|exact HFin'].
    + exists F. split; [exact HF'|]. intros j. rewrite HFin'. change (sz (with_unused s u)) with (sz s).
      unfold fupd. destruct (N.eqb_spec j x); intuition congruence.
Qed.

(** ** Adding a variable to the invariant *)
Lemma no_refs f al n i : (forall k, al k = true -> ~ In i (v_dep (f k))) ->
  refs f al n i = 0 /\ refs_se f al n i = 0.
Proof.
  intros H.
  assert (Z : forall k, al k = true -> cnt (f k) i = 0 /\ cnt_se (f k) i = 0).
  { intros k Hk. unfold cnt, cnt_se.
    assert (occ (v_dep (f k)) i = 0); [|destruct (v_wptr (f k)); auto].
    destruct (N.eq_dec (occ (v_dep (f k)) i) 0); auto. exfalso. apply (H k Hk), occ_pos. lia. }
  split.
  - destruct (N.eq_dec (refs f al n i) 0) as [|Hne]; auto. exfalso. unfold refs in Hne.
    destruct (sumn_pos (fun k => if al k then cnt (f k) i else 0) n) as (k & Hk & Hp); [lia|].
    destruct (al k) eqn:Ek; [|lia]. destruct (Z k Ek). lia.
  - destruct (N.eq_dec (refs_se f al n i) 0) as [|Hne]; auto. exfalso. unfold refs_se in Hne.
    destruct (sumn_pos (fun k => if al k then cnt_se (f k) i else 0) n) as (k & Hk & Hp); [lia|].
    destruct (al k) eqn:Ek; [|lia]. destruct (Z k Ek). lia.
Qed.

Lemma cnts_add f g al n n' own own' ownse ownse' i :
  cnts f al n own ownse [] -> (forall k, al k = true -> ~ In i (v_dep (f k))) ->
  al i = false -> 0 < i < N.of_nat n' -> (n' = n \/ n' = S n) ->
  (forall j, j <> i -> g j = f j) -> v_rc (g i) = 1 -> v_se (g i) = 0 ->
  (forall d, In d (v_dep (g i)) -> d <> 0 -> al d = true) ->
  (forall j, j <> 0 -> own' j + cnt (g i) j = own j + (if j =? i then 1 else 0)) ->
  (forall j, j <> 0 -> ownse' j + cnt_se (g i) j = ownse j) ->
  cnts g (fupd al i true) n' own' ownse' [].
Proof.
  intros C Hno Hi Hr Hn Eg Erc Ese Hd Eo Es.
  assert (NZ : forall j, al j = true -> j <> 0) by (intros j Hj; pose proof (c_range _ _ _ _ _ _ C j Hj); lia).
  assert (R0 : forall j, refs f al n' j = refs f al n j).
  { intros j. destruct Hn as [-> | ->]; auto. apply refs_grow.
    destruct (al (N.of_nat n)) eqn:E; auto. apply (c_range _ _ _ _ _ _ C) in E. lia. }
  assert (Rs0 : forall j, refs_se f al n' j = refs_se f al n j).
  { intros j. destruct Hn as [-> | ->]; auto. apply refs_se_grow.
    destruct (al (N.of_nat n)) eqn:E; auto. apply (c_range _ _ _ _ _ _ C) in E. lia. }
  assert (Eg' : forall k, al k = true -> core (g k) = core (f k)).
  { intros k Hk. rewrite Eg; auto. congruence. }
  assert (R : forall j, refs g (fupd al i true) n' j = refs f al n j + cnt (g i) j).
  { intros j. rewrite refs_alloc by (auto; lia). rewrite (refs_ext g f) by auto. now rewrite R0. }
  assert (Rs : forall j, refs_se g (fupd al i true) n' j = refs_se f al n j + cnt_se (g i) j).
  { intros j. rewrite refs_se_alloc by (auto; lia). rewrite (refs_se_ext g f) by auto. now rewrite Rs0. }
  assert (Z : occ (v_dep (g i)) i = 0).
  { destruct (N.eq_dec (occ (v_dep (g i)) i) 0); auto. exfalso.
    assert (In i (v_dep (g i))) by (apply occ_pos; lia). rewrite Hd in Hi; auto; [discriminate|lia]. }
  assert (Z1 : cnt (g i) i = 0 /\ cnt_se (g i) i = 0).
  { unfold cnt, cnt_se. destruct (v_wptr (g i)); auto. }
  destruct (c_own0 _ _ _ _ _ _ C i ltac:(lia) Hi) as (O1 & O2).
  destruct (no_refs f al n i Hno) as (N1 & N2).
  assert (Q : forall j, fupd al i true j = true -> j = i \/ (j <> i /\ al j = true)).
  { intros j. unfold fupd. destruct (N.eqb_spec j i); auto. }
  constructor.
  - intros j Hj. destruct (Q j Hj) as [->|(_ & Ha)]; [lia|].
    pose proof (c_range _ _ _ _ _ _ C j Ha). lia.
  - intros j Hj. unfold fupd in Hj. destruct (N.eq_dec j i) as [->|Hne]; [now rewrite N.eqb_refl in Hj|].
    destruct (N.eqb_spec j i); [congruence|]. rewrite Eg by auto. now apply (c_free _ _ _ _ _ _ C).
  - intros j Hj0 Hj. unfold fupd in Hj. destruct (N.eqb_spec j i); [discriminate|].
    specialize (Eo j Hj0). specialize (Es j Hj0). destruct (N.eqb_spec j i); [congruence|].
    destruct (c_own0 _ _ _ _ _ _ C j Hj0 Hj). lia.
  - intros j Hj. rewrite R. destruct (Q j Hj) as [->|(Hne & Ha)].
    + rewrite Erc. specialize (Eo i ltac:(lia)). rewrite N.eqb_refl in Eo. lia.
    + rewrite Eg by auto. rewrite (c_rc _ _ _ _ _ _ C j Ha). specialize (Eo j (NZ _ Ha)).
      destruct (N.eqb_spec j i); [congruence|]. lia.
  - intros j Hj. rewrite Rs. destruct (Q j Hj) as [->|(Hne & Ha)].
    + rewrite Ese. specialize (Es i ltac:(lia)). lia.
    + rewrite Eg by auto. rewrite (c_se _ _ _ _ _ _ C j Ha). specialize (Es j (NZ _ Ha)). lia.
  - constructor.
  - intros j [].
  - intros j Hj. right. destruct (Q j Hj) as [->|(Hne & Ha)]; [lia|]. rewrite Eg by auto.
    destruct (c_live _ _ _ _ _ _ C j Ha) as [[]|]; auto.
Qed.

Lemma stat_add f g al m m' h hx hx' ts ctr i :
  stat f al m h hx ts ctr -> al i = false -> (forall j, j <> i -> g j = f j) ->
  wf (g i) -> (forall d, In d (v_dep (g i)) -> d <> 0 -> al d = true) ->
  (v_wptr (g i) = true -> v_kind (g i) = K_Literal /\ exists d, v_dep (g i) = [0; 0; 0; d] /\ d <> 0 /\
     is_evaluated (f d) = true) ->
  (v_retain (g i) = true -> is_evaluated (g i) = true /\ exists d, v_dep (g i) = [0; 0; 0; d] /\ d <> 0 /\
     is_evaluated (f d) = true /\ v_lit (f d) = v_lit (g i) /\ v_size (g i) <= v_size (f d)) ->
  (m' = m \/ m' = (key_of (g i), i) :: m /\ is_evaluated (g i) = false /\ ~ In (key_of (g i)) (map fst m)) ->
  (is_evaluated (g i) = true /\ v_retain (g i) = false /\ hx = v_lit (g i) :: hx' /\ ~ In (v_lit (g i)) hx' /\
     (exists c, In (v_lit (g i), c) h /\ v_size (g i) <= N.of_nat (length c)) \/
   (is_evaluated (g i) = false \/ v_retain (g i) = true) /\ hx = hx') ->
  v_scope (g i) <= ctr ->
  stat g (fupd al i true) m' h hx' ts ctr.
Proof.
  intros S Hi Eg W Hd Hw Hret Hm Hh Hsc.
  assert (Q : forall j, fupd al i true j = true -> j = i \/ (j <> i /\ al j = true)).
  { intros j. unfold fupd. destruct (N.eqb_spec j i); auto. }
  assert (P : forall j, al j = true -> fupd al i true j = true /\ j <> i).
  { intros j Hj. assert (j <> i) by congruence. rewrite fupd_ne; auto. }
  assert (PG : forall j, al j = true -> g j = f j) by (intros j Hj; apply Eg; congruence).
  assert (Hx : forall p, In p hx' -> In p hx).
  { intros p Hp. destruct Hh as [(_ & _ & -> & _)|(_ & ->)]; [now right|auto]. }
  constructor.
  - intros j Hj. destruct (Q j Hj) as [->|(Hn & Ha)]; auto. rewrite Eg by auto. now apply (s_wf _ _ _ _ _ _ _ S).
  - intros j d Hj Hin Hd0. apply P. destruct (Q j Hj) as [->|(Hn & Ha)]; auto.
    rewrite Eg in Hin by auto. now apply (s_dep _ _ _ _ _ _ _ S j).
  - destruct (s_rank _ _ _ _ _ _ _ S) as (rk & R).
    exists (fun j => if j =? i then 1 + fold_right N.add 0 (map rk (v_dep (g i))) else rk j).
    intros j d Hj Hin Hd0. destruct (Q j Hj) as [->|(Hn & Ha)].
    + rewrite N.eqb_refl. destruct (N.eqb_spec d i) as [->|_]; [rewrite Hd in Hi; auto; discriminate|].
      assert (B : forall l, In d l -> rk d <= fold_right N.add 0 (map rk l)).
      { induction l as [|y l IH]; [easy|]. intros [->|H]; cbn; [lia|]. specialize (IH H). lia. }
      specialize (B _ Hin). lia.
    + rewrite Eg in Hin by auto. destruct (N.eqb_spec j i); [congruence|].
      destruct (N.eqb_spec d i) as [->|]; [|now apply R].
      rewrite (s_dep _ _ _ _ _ _ _ S j i) in Hi; auto. discriminate.
  - intros j Hj Hwj. destruct (Q j Hj) as [->|(Hn & Ha)].
    + destruct (Hw Hwj) as (K & d & E & Hd0 & He). split; auto. exists d. rewrite (PG d); auto.
      apply Hd; auto. rewrite E. simpl; auto.
    + rewrite (Eg j) in * by auto. destruct (s_wp _ _ _ _ _ _ _ S j Ha Hwj) as (K & d & E & Hd0 & He).
      split; auto. exists d. rewrite (PG d); auto. apply (s_dep _ _ _ _ _ _ _ S j); auto. rewrite E. simpl; auto.
  - intros j Hj Hwj. destruct (Q j Hj) as [->|(Hn & Ha)].
    + destruct (Hret Hwj) as (K & d & E & Hd0 & He). split; auto. exists d. rewrite (PG d); auto.
      apply Hd; auto. rewrite E. simpl; auto.
    + rewrite (Eg j) in * by auto. destruct (s_ret _ _ _ _ _ _ _ S j Ha Hwj) as (K & d & E & Hd0 & He).
      split; auto. exists d. rewrite (PG d); auto. apply (s_dep _ _ _ _ _ _ _ S j); auto. rewrite E. simpl; auto.
  - destruct Hm as [->|(-> & _ & Hn)]; [apply S|]. cbn. constructor; [exact Hn|apply S].
  - assert (L : forall k j, In (k, j) m -> fupd al i true j = true /\ is_evaluated (g j) = false /\ key_of (g j) = k).
    { intros k j H. destruct (s_lvn _ _ _ _ _ _ _ S k j H) as (A & B & D). rewrite PG by auto.
      split; [now apply P|auto]. }
    intros k j H. destruct Hm as [->|(-> & He & Hn)]; [auto|]. destruct H as [E|H]; [|auto].
    injection E as <- <-. rewrite fupd_eq. auto.
  - apply S.
  - apply S.
  - intros j Hj He Hr. destruct (Q j Hj) as [->|(Hn & Ha)].
    + destruct Hh as [(_ & _ & _ & H1 & H2)|([H|H] & _)]; [auto|congruence|congruence].
    + rewrite (Eg j) in * by auto. destruct (s_hown _ _ _ _ _ _ _ S j Ha He Hr) as (A & B). split; auto.
  - assert (X : forall j, al j = true -> is_evaluated (f j) = true -> v_retain (f j) = false ->
               is_evaluated (g i) = true -> v_retain (g i) = false -> v_lit (f j) <> v_lit (g i)).
    { intros j Hj He Hr He' Hr' E. destruct Hh as [(_ & _ & Hxx & _)|([H|H] & _)]; [|congruence|congruence].
      destruct (s_hown _ _ _ _ _ _ _ S j Hj He Hr) as (A & _). apply A. rewrite Hxx, E. now left. }
    intros j k Hj Hje Hjr Hk Hke Hkr E. destruct (Q j Hj) as [->|(Hn & Ha)], (Q k Hk) as [->|(Hn' & Ha')]; auto.
    + rewrite (Eg k) in * by auto. exfalso. eapply X; eauto.
    + rewrite (Eg j) in * by auto. exfalso. eapply X; eauto.
    + rewrite (Eg j), (Eg k) in * by auto. now apply (s_hinj _ _ _ _ _ _ _ S).
  - intros p Hp. destruct (s_hall _ _ _ _ _ _ _ S p Hp) as [H|(j & A & B & D & El)].
    + destruct Hh as [(He & Hr & -> & _)|(_ & ->)]; [|auto]. destruct H as [<-|H]; [|auto].
      right. exists i. rewrite fupd_eq. auto.
    + right. exists j. rewrite PG by auto. split; [now apply P|auto].
  - intros j Hj. destruct (Q j Hj) as [->|(Hn & Ha)]; auto. rewrite Eg by auto. now apply (s_scope _ _ _ _ _ _ _ S).
  - apply S.
  - apply S.
Qed.

(** Contents of an unallocated slot do not matter. *)
Lemma INV_garbage s s' al own ownse hx i :
  INV s al own ownse [] hx -> al i = false -> (forall j, j <> i -> V s' j = V s j) ->
  v_rc (V s' i) = 0 -> v_se (V s' i) = 0 -> length (vars s') = length (vars s) ->
  lvn s' = lvn s -> heap s' = heap s -> tscope s' = tscope s -> sctr s' = sctr s -> slots s' al ->
  INV s' al own ownse [] hx.
Proof.
  intros I Hi EV E1 E2 EL Em Eh Et Ec Hsl.
  pose proof (I_cnt _ _ _ _ _ _ I) as C.
  assert (PG : forall j, al j = true -> V s' j = V s j) by (intros j Hj; apply EV; congruence).
  constructor; auto.
  - rewrite EL. constructor; try apply C.
    + intros j Hj. destruct (N.eq_dec j i) as [->|]; [auto|]. rewrite EV by auto. now apply (c_free _ _ _ _ _ _ C).
    + intros j Hj. rewrite (refs_ext (V s') (V s)) by (intros; now rewrite PG). rewrite PG by auto.
      now apply (c_rc _ _ _ _ _ _ C).
    + intros j Hj. rewrite (refs_se_ext (V s') (V s)) by (intros; now rewrite PG). rewrite PG by auto.
      now apply (c_se _ _ _ _ _ _ C).
    + intros j [].
    + intros j Hj. rewrite PG by auto. now apply (c_live _ _ _ _ _ _ C).
  - rewrite Em, Eh, Et, Ec. eapply stat_ext; [|apply I]. intros j Hj. now rewrite PG.
  - unfold sz. rewrite EL. apply I.
Qed.

(** ** Keys *)
Lemma packed_inj v w : wf v -> wf w -> packed v = packed w ->
  v_kind v = v_kind w /\ v_backend v = v_backend w /\ v_type v = v_type w /\ v_wptr v = v_wptr w /\
  v_written v = v_written w /\
  (if v_array v || v_coop v then v_alen v else 0) = (if v_array w || v_coop w then v_alen w else 0).
Proof.
  intros (_&A1&A2&A3&A4&_) (_&B1&B2&B3&B4&_). unfold packed.
  generalize (if v_array v || v_coop v then v_alen v else 0) as x, (if v_array w || v_coop w then v_alen w else 0) as y.
  change (2 ^ 7) with 128 in *. change (2 ^ 9) with 512. change (2 ^ 14) with 16384.
  change (2 ^ 15) with 32768. change (2 ^ 16) with 65536 in *.
  intros x y E.
  assert (W : N.b2n (v_wptr v) = N.b2n (v_wptr w) /\ N.b2n (v_written v) = N.b2n (v_written w) /\
              v_kind v = v_kind w /\ v_backend v = v_backend w /\ v_type v = v_type w /\ x = y).
  { assert (N.b2n (v_wptr v) <= 1) by (destruct (v_wptr v); cbn; lia).
    assert (N.b2n (v_wptr w) <= 1) by (destruct (v_wptr w); cbn; lia).
    assert (N.b2n (v_written v) <= 1) by (destruct (v_written v); cbn; lia).
    assert (N.b2n (v_written w) <= 1) by (destruct (v_written w); cbn; lia). lia. }
  destruct W as (W1 & W2 & W3 & W4 & W5 & W6).
  repeat split; auto; apply N.b2n_inj; auto.
Qed.

Lemma key_inj v w : wf v -> wf w -> key_of v = key_of w ->
  same_computation v w /\
  (if v_array v || v_coop v then v_alen v else 0) = (if v_array w || v_coop w then v_alen w else 0).
Proof.
  intros Wv Ww E. unfold key_of in E. injection E as E1 E2.
  assert (L : length (v_dep v) = length (v_dep w)) by (destruct Wv as (-> & _), Ww as (-> & _); reflexivity).
  assert (E3 : v_dep v = v_dep w /\ [v_lit v; v_size v; packed v] = [v_lit w; v_size w; packed w]).
  { revert E2 L. generalize (v_dep v) as a, (v_dep w) as b.
    induction a as [|x a IH]; intros [|y b] E L; try discriminate; [auto|].
    cbn in E. injection E as -> E. cbn in L. destruct (IH b E) as (-> & H); [lia|]. auto. }
  destruct E3 as (E3 & E4). injection E4 as E4 E5 E6.
  destruct (packed_inj v w Wv Ww E6) as (A & B & D & F & G & H). unfold same_computation. tauto.
Qed.
