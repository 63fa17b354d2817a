(** Proofs about the kernel history *)
From Verif Require Import Base Khi_Model Khi_Spec.

Definition opt (p : option nat) : list nat := match p with Some b => [b] | None => [] end.
Definition irs (es : list entry) : list nat := flat_map (fun e => opt (e_ir e)) es.
Definition ows (R : list (nat * list entry)) : list nat := flat_map (fun p => fst p :: irs (snd p)) R.

Definition owns (s : state) (L : list nat) : Prop :=
  NoDup L /\ (forall b, live s b = true <-> In b L) /\ (forall b, In b L -> b < next s).
Definition holds (s : state) (W : list nat) : Prop :=
  NoDup W /\ (forall k, held s k = true <-> In k W) /\ (forall k, In k W -> k < works s).
(** All but [live] *)
Definition same (s t : state) : Prop :=
  h_data t = h_data s /\ h_size t = h_size s /\ h_cap t = h_cap s /\ arr t = arr s /\ next t = next s /\
  held t = held s /\ fin t = fin s /\ thr t = thr s /\ works t = works s.
Lemma same_refl s : same s s. Proof. unfold same; intuition. Qed.
Lemma same_trans s t u : same s t -> same t u -> same s u.
Proof. unfold same. intros; intuition congruence. Qed.

Lemma upd_eq {A} (f : nat -> A) i x : upd f i x i = x.
Proof. unfold upd. now rewrite Nat.eqb_refl. Qed.
Lemma upd_neq {A} (f : nat -> A) i x j : j <> i -> upd f i x j = f j.
Proof. unfold upd. intro. destruct (Nat.eqb_spec j i); congruence. Qed.

Lemma owns_perm s L M : Permutation L M -> owns s L -> owns s M.
Proof.
  intros HP (A & B & C). split; [ exact (Permutation_NoDup HP A) |]. split.
  - intro b. rewrite B. split; apply Permutation_in; [ exact HP | now apply Permutation_sym ].
  - intros b Hb. apply C. exact (Permutation_in _ (Permutation_sym HP) Hb).
Qed.

Lemma free_ok s p L : owns s (opt p ++ L) -> exists t, free s p = Some t /\ owns t L /\ same s t.
Proof.
  destruct p as [b |]; cbn [opt app].
  - intros (A & B & C). inversion A as [| ? ? N1 N2]; subst.
    assert (Hl : live s b = true) by (apply B; now left).
    unfold free. rewrite Hl. eexists. split; [ reflexivity |]. split; [| unfold same; cbn; intuition ].
    split; [ exact N2 |]. split; cbn [live next].
    + intro x. destruct (Nat.eq_dec x b) as [-> | Hn].
      * rewrite upd_eq. split; [ discriminate | contradiction ].
      * rewrite upd_neq by exact Hn. rewrite B. cbn [In]. intuition congruence.
    + intros x Hx. apply C. now right.
  - intro H. exists s. split; [ reflexivity |]. split; [ exact H | apply same_refl ].
Qed.

Lemma walk_ok es : forall s L rest, owns s (irs es ++ L) ->
  exists t, walk s (map Ent es ++ Zero :: rest) = Some t /\ owns t L /\ same s t.
Proof.
  induction es as [| e r IH]; intros s L rest H; cbn [map app walk].
  - exists s. split; [ reflexivity |]. split; [ exact H | apply same_refl ].
  - unfold irs in H. cbn [flat_map] in H. rewrite <- app_assoc in H.
    destruct (free_ok _ _ _ H) as (t & E & O1 & S1). rewrite E. cbn [bind].
    destruct (IH t L rest O1) as (u & E2 & O2 & S2). exists u. split; [ exact E2 |].
    split; [ exact O2 | exact (same_trans _ _ _ S1 S2) ].
Qed.

(** All but tasks and [live] *)
Definition same' (s t : state) : Prop :=
  h_data t = h_data s /\ h_size t = h_size s /\ h_cap t = h_cap s /\ arr t = arr s /\ next t = next s /\
  thr t = thr s /\ works t = works s.

Lemma drop_ok s k W f : holds s (k :: W) -> holds (set_work s (upd (held s) k false) f) W.
Proof.
  intros (A & B & C). inversion A as [| ? ? N1 N2]; subst. split; [ exact N2 |]. split; cbn [set_work held works].
  - intro x. destruct (Nat.eq_dec x k) as [-> | Hn].
    + rewrite upd_eq. split; [ discriminate | contradiction ].
    + rewrite upd_neq by exact Hn. rewrite B. cbn [In]. intuition congruence.
  - intros x Hx. apply C. now right.
Qed.

Lemma release_ok es : forall s L, owns s (irs es ++ L) -> holds s (map e_work es) ->
  exists t, release s (map Ent es) = Some t /\ owns t L /\ holds t [] /\ same' s t.
Proof.
  induction es as [| e r IH]; intros s L H W; cbn [map release].
  - exists s. repeat (split; [ first [ reflexivity | exact H | exact W ] |]). unfold same'; intuition.
  - unfold irs in H. cbn [flat_map] in H. rewrite <- app_assoc in H. cbn [map] in W.
    assert (Hh : held s (e_work e) = true) by (apply W; now left). rewrite Hh. cbn [negb].
    pose proof (drop_ok _ _ _ (fin s) W) as W1.
    set (s1 := set_work s (upd (held s) (e_work e) false) (fin s)) in *.
    assert (H1 : owns s1 (opt (e_ir e) ++ irs r ++ L)) by exact H.
    destruct (free_ok _ _ _ H1) as (t & E & O1 & S1). rewrite E. cbn [bind].
    assert (W2 : holds t (map e_work r)).
    { unfold same in S1. destruct W1 as (A & B & C). destruct S1 as (_ & _ & _ & _ & _ & Eh & _ & _ & Ew).
      split; [ exact A |]. split; [ intro k; rewrite Eh; apply B | intros k Hk; rewrite Ew; now apply C ]. }
    destruct (IH t L O1 W2) as (u & E2 & O2 & W3 & S2). exists u.
    split; [ exact E2 |]. split; [ exact O2 |]. split; [ exact W3 |].
    unfold same in S1. unfold same' in *. subst s1. cbn in S1. intuition congruence.
Qed.

Definition kept (e e' : entry) : Prop :=
  e_be e' = e_be e /\ e_tag e' = e_tag e /\ e_ir e' = e_ir e /\ e_timed e' = true.
Lemma finalize_ok es : forall s, holds s (map e_work es) ->
  (forall e, In e es -> e_be e = CUDA -> fin s (e_work e) = true) ->
  exists t es', finalize s (map Ent es) = Some (t, map Ent es') /\ Forall2 kept es es' /\ irs es' = irs es /\
    holds t [] /\ same' s t /\ live t = live s.
Proof.
  induction es as [| e r IH]; intros s W F; cbn [map finalize].
  - exists s, []. split; [ reflexivity |]. split; [ constructor |]. split; [ reflexivity |].
    split; [ exact W |]. split; [| reflexivity ]. unfold same'. intuition.
  - cbn [map] in W. assert (Hh : held s (e_work e) = true) by (apply W; now left). rewrite Hh. cbn [negb].
    set (f := match e_be e with LLVM => upd (fin s) (e_work e) true | CUDA => fin s end).
    assert (Hf : f (e_work e) = true).
    { unfold f. destruct (e_be e) eqn:Eb; [ apply upd_eq | apply F; [ now left | exact Eb ] ]. }
    assert (Hm : forall k, fin s k = true -> f k = true).
    { intros k Hk. unfold f. destruct (e_be e); [| exact Hk ]. unfold upd. now destruct (Nat.eqb k (e_work e)). }
    destruct (IH (set_work s (upd (held s) (e_work e) false) f) (drop_ok _ _ _ f W)) as (t & es' & E & K1 & K2 & K3 & K4 & K5).
    { intros x Hx Hb. cbn [set_work fin]. apply Hm. apply F; [ now right | exact Hb ]. }
    rewrite E. cbn [bind]. rewrite Hf.
    eexists t, (_ :: es'). split; [ reflexivity |]. split.
    { constructor; [| exact K1 ]. unfold kept. cbn. intuition. }
    split. { unfold irs in *. cbn [flat_map e_ir]. now rewrite K2. }
    split; [ exact K3 |]. split; [ exact K4 | exact K5 ].
Qed.

Lemma set2 (l : list cell) : forall n x y, n + 1 < length l ->
  set_nth (n + 1) y (set_nth n x l) = firstn n l ++ x :: y :: skipn (n + 2) l.
Proof.
  induction l as [| a r IH]; intros n x y H; cbn [length] in H; [ lia |].
  destruct n as [| n].
  - destruct r; cbn [length] in H; [ lia | reflexivity ].
  - cbn. f_equal. apply IH. lia.
Qed.

(** Entries of launches; [pend]: not queried, [fine]: queried *)
Definition irok (e : entry) (x : kern) : Prop :=
  match e_ir e with Some _ => x_jit x = true | None => x_jit x = false end.
Definition pend (s : state) (e : entry) (x : kern) : Prop :=
  e_be e = x_be x /\ e_tag e = x_tag x /\ irok e x /\ thr s (e_work e) = x_thr x.
Definition fine (e : entry) (x : kern) : Prop :=
  e_be e = x_be x /\ e_tag e = x_tag x /\ irok e x /\ e_timed e = true.
Definition resok (s : state) (p : nat * list entry) (q : nat * list kern) : Prop :=
  fst p = fst q /\ Forall2 fine (snd p) (snd q) /\
  exists rest, arr s (fst p) = map Ent (snd p) ++ Zero :: rest.

Definition hist (s : state) (P : list entry) : Prop :=
  h_size s = length P /\
  match h_data s with
  | None => P = [] /\ h_cap s = 0
  | Some b => P <> [] /\ length (arr s b) = h_cap s /\ exists rest, arr s b = map Ent P ++ Zero :: rest
  end.

Record inv (s : state) (c : client) (P : list entry) (R : list (nat * list entry)) : Prop := {
  i_hist : hist s P;
  i_new : Forall2 (pend s) P (c_new c);
  i_res : Forall2 (resok s) R (c_res c);
  i_own : owns s (opt (h_data s) ++ irs P ++ ows R);
  i_hold : holds s (map e_work P)
}.

Lemma inv_initial : inv initial start [] [].
Proof.
  constructor; cbn.
  - split; [ reflexivity | split; reflexivity ].
  - constructor.
  - constructor.
  - split; [ constructor |]. split; cbn; [ intuition discriminate | contradiction ].
  - split; [ constructor |]. split; cbn; [ intuition discriminate | contradiction ].
Qed.

Lemma in_ows R p : In p R -> In (fst p) (ows R).
Proof. intro H. unfold ows. apply in_flat_map. exists p. split; [ exact H | now left ]. Qed.
Lemma res_frame s t R C : (forall b, In b (ows R) -> arr t b = arr s b) ->
  Forall2 (resok s) R C -> Forall2 (resok t) R C.
Proof.
  intros H F. induction F as [| p q R C X F IH]; [ constructor |]. constructor.
  - destruct X as (A & B & rest & E). split; [ exact A |]. split; [ exact B |]. exists rest.
    rewrite <- E. apply H. apply in_ows. now left.
  - apply IH. intros b Hb. apply H. unfold ows. cbn [flat_map]. apply in_or_app. now right.
Qed.

Lemma append_ok s P X e : hist s P -> owns s (opt (h_data s) ++ X) ->
  exists t, append s e = Some t /\ hist t (P ++ [e]) /\ owns t (opt (h_data t) ++ X) /\
    (forall b, In b X -> arr t b = arr s b) /\ held t = held s /\ thr t = thr s /\ works t = works s.
Proof.
  intros (Hs & Hd) Ho. unfold append.
  assert (G : exists u b, grow s = Some u /\ h_data u = Some b /\ h_size u = length P /\ owns u (b :: X) /\
      length (arr u b) = h_cap u /\ length P + 2 <= h_cap u /\ firstn (length P) (arr u b) = map Ent P /\
      (forall x, In x X -> arr u x = arr s x) /\ held u = held s /\ thr u = thr s /\ works u = works s).
  { unfold grow. destruct (Nat.ltb_spec (h_cap s) (h_size s + 2)) as [Hc | Hc].
    - set (old := match h_data s with Some b => if live s b then arr s b else [] | None => [] end).
      assert (Hold : firstn (h_size s) old = map Ent P /\ h_size s <= length old).
      { unfold old. destruct (h_data s) as [b |].
        - assert (Hl : live s b = true) by (apply Ho; now left). rewrite Hl.
          destruct Hd as (_ & _ & rest & E). rewrite E, Hs, app_length, map_length. split; [| lia ].
          rewrite <- (map_length Ent P), firstn_app, Nat.sub_diag, firstn_all. cbn. apply app_nil_r.
        - destruct Hd as (-> & _). rewrite Hs. cbn. split; [ reflexivity | lia ]. }
      destruct Hold as (Hf & Hlen). cbv zeta.
      destruct (Nat.ltb_spec (length old) (h_size s)) as [Hbad | _]; [ lia |].
      rewrite Hf. set (l := map Ent P ++ repeat Junk ((h_size s + 2) * 2 - h_size s)).
      destruct (malloc s l) as [s1 tmp] eqn:Em.
      assert (Hm : owns s1 (opt (h_data s1) ++ tmp :: X)).
      { unfold malloc in Em. injection Em as <- <-. cbn [h_data].
        apply (owns_perm _ (next s :: opt (h_data s) ++ X)); [ apply Permutation_middle |].
        destruct Ho as (A & B & C). split.
        - constructor; [| exact A ]. intro Hin. specialize (C _ Hin). lia.
        - split; cbn [live next].
          + intro x. destruct (Nat.eq_dec x (next s)) as [-> | Hn].
            * rewrite upd_eq. split; [ now left | reflexivity ].
            * rewrite upd_neq by exact Hn. rewrite B. cbn [In]. intuition congruence.
          + intros x [<- | Hx]; [ lia | specialize (C _ Hx); lia ]. }
      destruct (free_ok _ _ _ Hm) as (u & E & O1 & S1). rewrite E. cbn [bind].
      assert (Ht : tmp = next s) by (unfold malloc in Em; congruence).
      assert (Ha : arr s1 = upd (arr s) (next s) l) by (unfold malloc in Em; injection Em as <- _; reflexivity).
      assert (Hz : h_size s1 = h_size s /\ held s1 = held s /\ thr s1 = thr s /\ works s1 = works s)
        by (unfold malloc in Em; injection Em as <- _; cbn; intuition).
      destruct Hz as (Z1 & Z2 & Z3 & Z4). destruct S1 as (_ & Y1 & _ & Y2 & _ & Y3 & _ & Y4 & Y5).
      eexists _, tmp. split; [ reflexivity |]. cbn [set_hist h_data h_size h_cap arr held thr works].
      assert (Hat : arr u tmp = l) by (rewrite Y2, Ha, Ht; apply upd_eq).
      split; [ reflexivity |]. split; [ congruence |]. split; [ exact O1 |].
      split. { rewrite Hat. unfold l. rewrite app_length, map_length, repeat_length. lia. }
      split; [ lia |]. split.
      { rewrite Hat. unfold l. rewrite <- (map_length Ent P), firstn_app, Nat.sub_diag, firstn_all. cbn. apply app_nil_r. }
      split. { intros x Hx. rewrite Y2, Ha. apply upd_neq. destruct Ho as (_ & _ & C).
               assert (x < next s) by (apply C; apply in_or_app; now right). lia. }
      split; [ congruence |]. split; congruence.
    - destruct (h_data s) as [b |] eqn:Eb; [| destruct Hd as (_ & Hz); lia ].
      destruct Hd as (_ & Hl & rest & E). exists s, b.
      split; [ reflexivity |]. split; [ exact Eb |]. split; [ exact Hs |]. split; [ exact Ho |].
      split; [ exact Hl |]. split; [ lia |]. split.
      { rewrite E, <- (map_length Ent P), firstn_app, Nat.sub_diag, firstn_all. cbn. apply app_nil_r. }
      split; [ reflexivity |]. split; [ reflexivity |]. split; reflexivity. }
  destruct G as (u & b & E & Hb & Hn & Ou & Hl & Hc & Hf & Hx & H1 & H2 & H3).
  rewrite E. cbn [bind]. rewrite Hb.
  assert (Hlv : live u b = true) by (apply Ou; now left). rewrite Hlv. rewrite Hn. cbn [andb].
  destruct (Nat.ltb_spec (length P + 1) (length (arr u b))) as [Hlt | Hbad]; [| lia ].
  eexists. split; [ reflexivity |].
  assert (Hset : set_nth (length P + 1) Zero (set_nth (length P) (Ent e) (arr u b)) =
                 map Ent (P ++ [e]) ++ Zero :: skipn (length P + 2) (arr u b)).
  { rewrite set2 by exact Hlt. rewrite Hf, map_app, <- app_assoc. reflexivity. }
  split.
  { split; cbn [set_hist set_arr h_size h_data h_cap arr].
    - rewrite app_length. cbn. lia.
    - split; [ now destruct P |]. rewrite upd_eq. split.
      + rewrite !set_nth_length. exact Hl.
      + eexists. exact Hset. }
  split; [ exact Ou |]. split.
  { intros x Hxx. cbn [set_hist set_arr arr]. rewrite upd_neq; [ now apply Hx |].
    destruct Ou as (A & _). inversion A; subst. intro; subst; contradiction. }
  split; [ exact H1 |]. split; [ exact H2 | exact H3 ].
Qed.

Lemma perm_mid (A B C : list nat) : Permutation (A ++ B ++ C) (B ++ A ++ C).
Proof. rewrite !app_assoc. apply Permutation_app_tail. apply Permutation_app_comm. Qed.

Lemma irs_app P Q : irs (P ++ Q) = irs P ++ irs Q.
Proof. unfold irs. apply flat_map_app. Qed.

Lemma shows_ok s c P R : inv s c P R -> shows s c.
Proof.
  intros [H1 H2 H3 H4 H5]. split.
  - intros b l Hin.
    assert (G : exists es, In (b, es) R /\ resok s (b, es) (b, l)).
    { clear - H3 Hin. induction H3 as [| p q R C X F IH]; [ destruct Hin |]. destruct Hin as [-> | Hin].
      - destruct p as [b' es]. assert (b' = b) by apply X. subst. exists es. split; [ now left | exact X ].
      - destruct (IH Hin) as (es & A & B). exists es. split; [ now right | exact B ]. }
    destruct G as (es & Gin & _ & Gf & rest & Ga). cbn [fst snd] in *.
    assert (Hlive : forall x, In x (b :: irs es) -> live s x = true).
    { intros x Hx. apply H4. apply in_or_app. right. apply in_or_app. right. unfold ows. apply in_flat_map.
      exists (b, es). split; [ exact Gin | exact Hx ]. }
    split; [ apply Hlive; now left |]. exists (map Ent es), rest. split; [ exact Ga |].
    assert (Hi : forall x, In x (irs es) -> live s x = true) by (intros; apply Hlive; now right).
    clear - Gf Hi. induction Gf as [| e x es l X F IH]; [ constructor |]. cbn [map]. constructor.
    + destruct X as (A & B & C & D). exists e. split; [ reflexivity |]. split; [ exact A |]. split; [ exact B |].
      split; [ exact D |]. unfold irok in C. destruct (e_ir e) as [i |] eqn:Ei; [| exact C ]. split; [ exact C |].
      apply Hi. unfold irs. cbn [flat_map]. rewrite Ei. now left.
    + apply IH. intros y Hy. apply Hi. unfold irs. cbn [flat_map]. apply in_or_app. now right.
  - intro En. rewrite En in H2. inversion H2; subst P. split.
    + intro k. destruct (held s k) eqn:E; [| reflexivity ]. apply H5 in E. destruct E.
    + intros Er b. rewrite Er in H3. inversion H3; subst R.
      destruct H1 as (_ & Hd). destruct (h_data s) as [d |] eqn:Ed; [ now destruct Hd |].
      destruct (live s b) eqn:E; [| reflexivity ]. apply H4 in E. destruct E.
Qed.

Lemma res_split s R C l1 b l l2 : Forall2 (resok s) R C -> C = l1 ++ (b, l) :: l2 ->
  exists R1 es R2, R = R1 ++ (b, es) :: R2 /\ Forall2 (resok s) (R1 ++ R2) (l1 ++ l2) /\
    exists rest, arr s b = map Ent es ++ Zero :: rest.
Proof.
  intros F ->. apply Forall2_app_inv_r in F. destruct F as (R1 & R' & F1 & F2 & ->).
  inversion F2 as [| [b' es] q R2 C2 X F3]; subst. destruct X as (A & B & rest & E). cbn [fst snd] in *. subst b'.
  exists R1, es, R2. split; [ reflexivity |]. split; [ now apply Forall2_app | exists rest; exact E ].
Qed.

Lemma step_ok s c P R o : inv s c P R -> legal c o ->
  exists s' x c' P' R', step s o = Some (s', x) /\ effect c o x c' /\ inv s' c' P' R'.
Proof.
  intros [H1 H2 H3 H4 H5] HL. destruct o as [be jit th tag | k | th | | b]; cbn [step].
  - (* Launch *)
    unfold launch.
    set (p := if jit then Some (next s) else None).
    assert (G : exists s1, (if jit then let '(s, b) := malloc s [] in (s, Some b) else (s, None)) = (s1, p) /\
      hist s1 P /\ owns s1 (opt (h_data s1) ++ opt p ++ irs P ++ ows R) /\
      (forall b, In b (ows R) -> arr s1 b = arr s b) /\ held s1 = held s /\ thr s1 = thr s /\ works s1 = works s).
    { unfold p. destruct jit.
      - eexists. split; [ reflexivity |].
        assert (Hn : forall b, In b (opt (h_data s) ++ irs P ++ ows R) -> b <> next s).
        { intros b Hb. destruct H4 as (_ & _ & C). specialize (C _ Hb). lia. }
        split.
        { destruct H1 as (A & B). split; cbn; [ exact A |]. destruct (h_data s) as [d |]; [| exact B ].
          rewrite upd_neq by (apply Hn; now left). exact B. }
        cbn [h_data opt]. split.
        { apply (owns_perm _ (next s :: opt (h_data s) ++ irs P ++ ows R)); [ apply Permutation_middle |].
          destruct H4 as (A & B & C). split; [ constructor; [ intro Hin; now apply (Hn _ Hin) | exact A ] |].
          split; cbn [live next].
          - intro x. destruct (Nat.eq_dec x (next s)) as [-> | Hx].
            + rewrite upd_eq. split; [ now left | reflexivity ].
            + rewrite upd_neq by exact Hx. rewrite B. cbn [In]. intuition congruence.
          - intros x [<- | Hx]; [ lia | specialize (C _ Hx); lia ]. }
        split; [| cbn; intuition ]. intros b Hb. cbn. apply upd_neq. apply Hn.
        apply in_or_app. right. apply in_or_app. now right.
      - exists s. split; [ reflexivity |]. split; [ exact H1 |]. split; [ exact H4 |]. intuition. }
    destruct G as (s1 & E1 & G1 & G2 & G3 & G4 & G5 & G6). rewrite E1.
    set (e := {| e_be := be; e_ir := p; e_work := works s1; e_tag := tag; e_timed := false |}).
    match goal with |- context [append ?st _] => set (s2 := st) end.
    assert (G1' : hist s2 P) by exact G1. assert (G2' : owns s2 (opt (h_data s2) ++ opt p ++ irs P ++ ows R)) by exact G2.
    destruct (append_ok s2 P (opt p ++ irs P ++ ows R) e G1' G2') as (t & E & T1 & T2 & T3 & T4 & T5 & T6).
    rewrite E. cbn [bind]. eexists t, _, _, (P ++ [e]), R. split; [ reflexivity |]. split; [ constructor |].
    constructor; cbn [c_new c_res].
    + exact T1.
    + apply Forall2_app.
      * assert (Hw : forall x, In x P -> e_work x <> works s1).
        { intros x Hx. assert (e_work x < works s) by (apply H5; now apply in_map). lia. }
        clear - H2 Hw T5 G5. induction H2 as [| x y P C X F IH]; [ constructor |]. constructor.
        -- destruct X as (A & B & C' & D). split; [ exact A |]. split; [ exact B |]. split; [ exact C' |].
           rewrite T5. unfold s2. cbn [thr]. rewrite upd_neq by (apply Hw; now left). now rewrite G5.
        -- apply IH. intros z Hz. apply Hw. now right.
      * constructor; [| constructor ]. split; [ reflexivity |]. split; [ reflexivity |]. split.
        -- unfold irok, e, p. cbn. now destruct jit.
        -- rewrite T5. unfold s2, e. cbn. apply upd_eq.
    + apply (res_frame s); [| exact H3 ]. intros b Hb. rewrite T3 by (apply in_or_app; right; apply in_or_app; now right).
      unfold s2. cbn [arr]. now apply G3.
    + apply (owns_perm _ (opt (h_data t) ++ opt p ++ irs P ++ ows R)); [| exact T2 ].
      apply Permutation_app_head. rewrite irs_app. cbn [irs flat_map e_ir e]. rewrite app_nil_r.
      rewrite <- app_assoc. apply perm_mid.
    + rewrite map_app. cbn [map]. destruct H5 as (A & B & C). unfold s2 in T4, T6. cbn [held works] in T4, T6. split.
      * apply (Permutation_NoDup (l := e_work e :: map e_work P)); [ apply Permutation_cons_append |].
        constructor; [| exact A ]. intro Hin. specialize (C _ Hin). cbn [e e_work] in C. lia.
      * split.
        -- intro k. rewrite T4, in_app_iff. cbn [In e e_work]. destruct (Nat.eq_dec k (works s1)) as [-> | Hn].
           ++ rewrite upd_eq. intuition.
           ++ rewrite upd_neq by exact Hn. rewrite G4, B. intuition congruence.
        -- intros k Hk. rewrite T6. apply in_app_iff in Hk. destruct Hk as [Hk | [<- | []]].
           ++ specialize (C _ Hk). lia.
           ++ cbn. lia.
  - (* Finish *)
    eexists _, _, c, P, R. split; [ reflexivity |]. split; [ constructor |]. constructor; assumption.
  - (* History *)
    cbn [legal] in HL. unfold get.
    change (h_data (sync s th)) with (h_data s). change (h_size (sync s th)) with (h_size s).
    change (live (sync s th)) with (live s). change (arr (sync s th)) with (arr s).
    destruct H1 as (Hs & Hd). destruct (h_data s) as [b |] eqn:Eb.
    + destruct Hd as (Hne & Hl & rest & Ea).
      assert (Hlv : live s b = true) by (apply H4; now left). rewrite Hlv. cbn [negb orb].
      assert (Hlen : h_size s = length (map Ent P)) by (rewrite map_length; exact Hs).
      destruct (Nat.ltb_spec (length (arr s b)) (h_size s)) as [Hbad | _].
      { rewrite Ea, app_length in Hbad. lia. }
      rewrite Ea, Hlen, firstn_app, Nat.sub_diag, firstn_all, skipn_app, Nat.sub_diag, skipn_all. cbn [firstn skipn app].
      rewrite app_nil_r.
      assert (HF : forall e, In e P -> e_be e = CUDA -> fin (sync s th) (e_work e) = true).
      { intros e He Hb. cbn [sync set_work fin].
        assert (G : exists x, In x (c_new c) /\ pend s e x).
        { clear - H2 He. induction H2 as [| a x P C X F IH]; [ destruct He |]. destruct He as [-> | He].
          - exists x. split; [ now left | exact X ].
          - destruct (IH He) as (y & A & B). exists y. split; [ now right | exact B ]. }
        destruct G as (x & Hx & Xa & _ & _ & Xd). rewrite Xd.
        rewrite (HL x Hx) by congruence. rewrite Nat.eqb_refl. apply orb_true_r. }
      destruct (finalize_ok P (sync s th) H5 HF) as (t & es & E & K1 & K2 & K3 & K4 & K5).
      rewrite E. cbn [bind]. unfold same' in K4. destruct K4 as (_ & _ & _ & Ka & Kn & Kt & Kw).
      assert (Hnb : ~ In b (irs P ++ ows R)).
      { destruct H4 as (A & _). cbn [opt app] in A. now inversion A. }
      eexists _, _, {| c_new := []; c_res := (b, c_new c) :: c_res c |}, [], ((b, es) :: R).
      split; [ reflexivity |]. split.
      { apply ef_some.
        - intro Hn. rewrite Hn in H2. inversion H2; subst. now apply Hne.
        - intro Hin. apply Hnb. apply in_or_app. right.
          apply in_map_iff in Hin. destruct Hin as ([b' l] & Hb' & Hin). cbn in Hb'. subst b'.
          clear - H3 Hin. induction H3 as [| p q R C X F IH]; [ destruct Hin |].
          unfold ows. cbn [flat_map]. destruct Hin as [-> | Hin].
          + left. apply X.
          + apply (in_or_app (fst p :: irs (snd p))). right. now apply IH. }
      constructor; cbn [c_new c_res].
      * split; cbn; [ reflexivity | split; reflexivity ].
      * constructor.
      * constructor.
        -- split; [ reflexivity |]. cbn [fst snd]. split.
           ++ clear - H2 K1. revert es K1. induction H2 as [| e x P C X F IH]; intros es K1; inversion K1; subst; constructor.
              ** destruct X as (A & B & C' & D). destruct H1 as (Q1 & Q2 & Q3 & Q4). split; [ congruence |].
                 split; [ congruence |]. split; [| exact Q4 ]. unfold irok in *. now rewrite Q3.
              ** now apply IH.
           ++ exists rest. cbn [set_hist set_arr arr]. apply upd_eq.
        -- apply (res_frame s); [| exact H3 ]. intros x Hx. cbn [set_hist set_arr arr].
           rewrite upd_neq; [ now rewrite Ka |]. intro; subst. apply Hnb. apply in_or_app. now right.
      * cbn [set_hist h_data opt app irs flat_map ows fst snd]. fold (irs es). fold (ows R). rewrite K2.
        cbn [opt app] in H4.
        destruct H4 as (A & B & C). split; [ exact A |]. split; cbn [live next].
        -- intro x. cbn. rewrite K5. apply B.
        -- intros x Hx. cbn. rewrite Kn. now apply C.
      * exact K3.
    + destruct Hd as (-> & Hc). rewrite Hs. cbn [length Nat.eqb]. cbn [bind].
      inversion H2 as [HN |]; subst. eexists _, _, c, [], R. split; [ reflexivity |].
      split; [ apply ef_none; congruence |]. constructor.
      * split; cbn; [ reflexivity | split; reflexivity ].
      * rewrite <- H. constructor.
      * exact H3.
      * exact H4.
      * exact H5.
  - (* Clear *)
    unfold clear. destruct H1 as (Hs & Hd). destruct (h_data s) as [b |] eqn:Eb.
    + destruct Hd as (Hne & Hl & rest & Ea).
      assert (Hlen : h_size s = length (map Ent P)) by (rewrite map_length; exact Hs).
      destruct (Nat.eqb_spec (h_size s) 0) as [Hz | _]; [ destruct P; [ now destruct Hne | cbn in Hs; lia ] |].
      assert (Hlv : live s b = true) by (apply H4; now left). rewrite Hlv. cbn [negb orb].
      destruct (Nat.ltb_spec (length (arr s b)) (h_size s)) as [Hbad | _].
      { rewrite Ea, app_length in Hbad. lia. }
      rewrite Ea, Hlen, firstn_app, Nat.sub_diag, firstn_all. cbn [firstn]. rewrite app_nil_r.
      assert (Ho : owns s (irs P ++ opt (Some b) ++ ows R)) by (apply (owns_perm _ _ _ (perm_mid _ _ _) H4)).
      destruct (release_ok P s _ Ho H5) as (t & E & O1 & W1 & S1). rewrite E. cbn [bind].
      destruct (free_ok t (Some b) (ows R) O1) as (u & E2 & O2 & S2). rewrite E2. cbn [bind].
      eexists _, _, _, [], R. split; [ reflexivity |]. split; [ apply ef_clear |].
      unfold same in S2. unfold same' in S1. destruct S2 as (_ & _ & _ & Ya & Yn & Yh & _ & _ & Yw).
      destruct S1 as (_ & _ & _ & Za & _ & _ & _). constructor; cbn [c_new c_res].
      * split; cbn; [ reflexivity | split; reflexivity ].
      * constructor.
      * apply (res_frame s); [| exact H3 ]. intros x _. cbn [set_hist arr]. congruence.
      * exact O2.
      * destruct W1 as (A & B & C). split; [ exact A |]. cbn [set_hist held works]. split.
        -- intro k. rewrite Yh. apply B.
        -- intros k Hk. destruct Hk.
    + destruct Hd as (-> & Hc). rewrite Hs. cbn [length Nat.eqb bind].
      inversion H2 as [HN |]; subst. eexists _, _, _, [], R. split; [ reflexivity |]. split; [ apply ef_clear |].
      constructor; cbn [c_new c_res].
      * split; [ exact Hs |]. rewrite Eb. split; [ reflexivity | exact Hc ].
      * constructor.
      * exact H3.
      * rewrite Eb. exact H4.
      * exact H5.
  - (* Free *)
    cbn [legal] in HL. apply in_map_iff in HL. destruct HL as ([b' l] & Hb & Hin). cbn in Hb. subst b'.
    apply in_split in Hin. destruct Hin as (l1 & l2 & Ec).
    destruct (res_split s R (c_res c) l1 b l l2 H3 Ec) as (R1 & es & R2 & -> & F & rest & Ea).
    assert (Ho : owns s (irs es ++ opt (Some b) ++ opt (h_data s) ++ irs P ++ ows (R1 ++ R2))).
    { apply (owns_perm _ (opt (h_data s) ++ irs P ++ ows (R1 ++ (b, es) :: R2))); [| exact H4 ].
      unfold ows. rewrite !flat_map_app. cbn [flat_map fst snd opt app].
      rewrite (app_assoc (opt (h_data s))), (app_assoc (opt (h_data s)) (irs P)).
      set (A := opt (h_data s) ++ irs P). set (B := flat_map _ R1). set (C := flat_map _ R2).
      eapply Permutation_trans; [ apply Permutation_sym; rewrite app_assoc; apply Permutation_middle |].
      eapply Permutation_trans; [| apply Permutation_middle ]. apply perm_skip.
      rewrite <- !app_assoc, !(app_assoc A). apply perm_mid. }
    unfold client_free. assert (Hlv : live s b = true).
    { apply Ho. apply in_or_app. right. now left. }
    rewrite Hlv, Ea. destruct (walk_ok es s _ rest Ho) as (t & E & O1 & S1). rewrite E. cbn [bind].
    destruct (free_ok t (Some b) _ O1) as (u & E2 & O2 & S2). rewrite E2. cbn [bind].
    pose proof (same_trans _ _ _ S1 S2) as (X1 & X2 & X3 & X4 & X5 & X6 & X7 & X8 & X9).
    eexists u, _, _, P, (R1 ++ R2). split; [ reflexivity |]. split; [ exact (ef_free c b l1 l l2 Ec) |].
    constructor; cbn [c_new c_res].
    + unfold hist in *. rewrite X1, X2, X3, X4. exact H1.
    + clear - H2 X8. induction H2 as [| x y P C X F IH]; [ constructor |]. constructor; [| exact IH ].
      unfold pend in *. now rewrite X8.
    + apply (res_frame s); [| exact F ]. intros x _. now rewrite X4.
    + rewrite X1. exact O2.
    + destruct H5 as (A & B & C). split; [ exact A |]. rewrite X9. split; [| exact C ]. intro k. rewrite X6. apply B.
Qed.

Lemma histories_inv l : forall s c P R, inv s c P R -> served s c l.
Proof.
  induction l as [| o r IH]; intros s c P R H; cbn [served]; (split; [ exact (shows_ok s c P R H) |]); [ exact Logic.I |].
  intro HL. destruct (step_ok s c P R o H HL) as (s' & x & c' & P' & R' & A & B & C).
  exists s', x, c'. split; [ exact A |]. split; [ exact B | exact (IH s' c' P' R' C) ].
Qed.
Lemma histories l : served initial start l.
Proof. exact (histories_inv l initial start [] [] inv_initial). Qed.
