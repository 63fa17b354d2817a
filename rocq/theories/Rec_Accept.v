From Verif Require Import Base Rec_Model Rec_Spec Rec_Front.
Local Open Scope N_scope.

Lemma size_eqs a b h : eqs a b -> size_of a h = size_of b h.
Proof.
  intros Q. unfold size_of. destruct (nth_error a h) as [v|] eqn:G.
  - destruct (eqs_nth _ _ _ _ Q G) as (w & -> & _ & E & _). exact E.
  - destruct (nth_error b h) as [w|] eqn:G'; [|reflexivity]. destruct (eqs_nth _ _ _ _ (eqs_sym _ _ Q) G') as (v & X & _). congruence.
Qed.
Lemma type_eqs a b h : eqs a b -> type_of a h = type_of b h.
Proof.
  intros Q. unfold type_of. destruct (nth_error a h) as [v|] eqn:G.
  - destruct (eqs_nth _ _ _ _ Q G) as (w & -> & E & _). exact E.
  - destruct (nth_error b h) as [w|] eqn:G'; [|reflexivity]. destruct (eqs_nth _ _ _ _ (eqs_sym _ _ Q) G') as (v & X & _). congruence.
Qed.
Definition inner (st : store) (h : nat) : list nat := match nth_error st h with Some v => match v_input v with Some d => [d] | None => [] end | None => [] end.
Lemma inner_eqs a b h : eqs a b -> inner a h = inner b h.
Proof.
  intros Q. unfold inner. destruct (nth_error a h) as [v|] eqn:G.
  - destruct (eqs_nth _ _ _ _ Q G) as (w & -> & E1 & E2 & E3 & E4 & E5 & _). now rewrite E5.
  - destruct (nth_error b h) as [w|] eqn:G'; [|reflexivity]. destruct (eqs_nth _ _ _ _ (eqs_sym _ _ Q) G') as (v & X & _). congruence.
Qed.
Definition dirtyb (st : store) (h : nat) : bool := match nth_error st h with Some v => v_dirty v | None => false end.
Lemma dirty_eqs a b h : eqs a b -> dirtyb a h = dirtyb b h.
Proof.
  intros Q. unfold dirtyb. destruct (nth_error a h) as [v|] eqn:G.
  - destruct (eqs_nth _ _ _ _ Q G) as (w & -> & E1 & E2 & E3 & E4 & E5 & E6 & E7). exact E7.
  - destruct (nth_error b h) as [w|] eqn:G'; [|reflexivity]. destruct (eqs_nth _ _ _ _ (eqs_sym _ _ Q) G') as (v & X & _). congruence.
Qed.
Lemma dirtyb_iff st h : dirtyb st h = true <-> is_dirty st h.
Proof. unfold dirtyb, is_dirty. destruct (nth_error st h) as [v|]. - split; [eauto|]. intros (w & E & D). now injection E as ->. - split; [discriminate|]. intros (w & E & _). discriminate. Qed.

(** ** Inputs *)
Definition arg' (size : N) (st : store) (h : nat) (n : N) : Prop :=
  argument st h n \/ (n <= size /\ argument st h 0 /\ exists v, nth_error st h = Some v /\ v_lit v = true).
Lemma inputs_ok ins ns : forall st size dirty, wf_store st -> Forall2 (arg' size st) ins ns ->
  exists st', check_inputs st size dirty ins = IOk st' (N.max size (largest ns)) (dirty || existsb (dirtyb st) (flat_map (inner st) ins)) /\
    eqs st st' /\ forall h v w, nth_error st h = Some v -> nth_error st' h = Some w -> v_scratch w = v_scratch v \/ v_scratch w = 0.
Proof.
  revert ns. induction ins as [|h ins IH]; intros ns st size dirty W F; inversion F as [|h' n ins' ns' A F' E1 E2]; subst; clear F.
  - exists st. cbn [check_inputs largest fold_right flat_map existsb]. rewrite orb_false_r, N.max_0_r. split; [reflexivity|]. split; [apply eqs_refl|]. intros h v w A B. left. congruence.
  - cbn [check_inputs largest fold_right flat_map]. change (fold_right N.max 0 ns') with (largest ns').
    assert (C : (exists v d w, nth_error st h = Some v /\ v_size v = 1 /\ v_input v = Some d /\ nth_error st d = Some w /\ v_size w = n) \/
                (exists v, nth_error st h = Some v /\ v_size v = 1 /\ v_input v = None /\ v_lit v = true /\ N.max size (v_scratch v) = N.max size n)).
    { assert (LI : forall v, nth_error st h = Some v -> v_lit v = true -> v_input v = None).
      { intros v G L. destruct (W h v G) as (_ & _ & WI). destruct (v_input v) as [d|]; [|reflexivity]. destruct (WI d eq_refl). congruence. }
      destruct A as [(v & G & S1 & [(d & w & D1 & D2 & D3)|[L SC]])|(LE & (v & G & S1 & X) & u & G2 & L)].
      - left. exists v, d, w. auto.
      - right. exists v. split; [auto|]. split; [auto|]. split; [auto|]. split; [auto|]. now rewrite SC.
      - replace u with v in * by congruence. right. exists v. split; [auto|]. split; [auto|]. split; [auto|]. split; [auto|].
        destruct X as [(d & w & D1 & _)|[_ SC]]; [rewrite LI in D1 by auto; discriminate|]. rewrite SC. lia. }
    destruct C as [(v & d & w & G & S1 & D1 & D2 & D3)|(v & G & S1 & NI & L & MX)].
    + rewrite G, D1, D2, S1. change (1 =? 1) with true. cbn iota.
      destruct (IH ns' st (N.max size (v_size w)) (dirty || v_dirty w) W) as (st' & E & Q & K).
      { clear -F'. induction F' as [|a b la lb H _ IHf]; constructor; [|exact IHf]. destruct H as [H|(H1 & H2)]; [now left|right]. split; [lia|exact H2]. }
      exists st'. rewrite E. split; [|auto]. f_equal; [lia|]. unfold inner at 2. rewrite G, D1. cbn [app existsb]. unfold dirtyb at 2. rewrite D2. now rewrite orb_assoc.
    + rewrite G, NI, L, S1. change (1 =? 1) with true. cbn iota.
      pose proof (scratch_eqs st h 0) as Q0. pose proof (eqs_wf _ _ Q0 W) as W0.
      destruct (IH ns' (set_scratch st h 0) (N.max size (v_scratch v)) dirty W0) as (st' & E & Q & K).
      { assert (LE : n <= N.max size (v_scratch v)) by lia. clear -F' MX LE G L W NI S1 Q0.
        assert (T : forall a b, argument st a b -> a <> h -> argument (set_scratch st h 0) a b).
        { intros a b (u & Gu & Su & X) NE. destruct (scratch_get st h 0 a u Gu) as (u' & Gu' & (E1 & E2 & E3 & E4 & E5 & E6 & E7) & SC).
          destruct (Nat.eqb_spec a h) as [|_]; [contradiction|]. exists u'. split; [exact Gu'|]. split; [congruence|]. destruct X as [(d & w & D1 & D2 & D3)|[X1 X2]].
          - left. destruct (eqs_nth _ _ _ _ Q0 D2) as (w' & D2' & _ & D3' & _). exists d, w'. repeat split; congruence.
          - right. split; congruence. }
        assert (Z : argument (set_scratch st h 0) h 0 /\ exists v', nth_error (set_scratch st h 0) h = Some v' /\ v_lit v' = true).
        { destruct (scratch_get st h 0 h v G) as (u' & Gu' & (E1 & E2 & E3 & E4 & E5 & E6 & E7) & SC). rewrite Nat.eqb_refl in SC. split; [|exists u'; split; congruence].
          exists u'. split; [exact Gu'|]. split; [congruence|]. right. split; congruence. }
        induction F' as [|a b la lb H _ IHf]; constructor; [|exact IHf]. destruct (Nat.eq_dec a h) as [->|NE].
        - right. destruct Z as [Z1 Z2]. split; [|split; [exact Z1|exact Z2]].
          destruct H as [(u & Gu & Su & X)|(H1 & _)]; [|lia]. replace u with v in * by congruence.
          destruct X as [(d & w & D1 & _)|[_ X2]]; [congruence|]. lia.
        - destruct H as [H|(H1 & H2 & u & Gu & Lu)]; [left; now apply T|right]. split; [lia|]. split; [now apply T|].
          destruct (eqs_nth _ _ _ _ Q0 Gu) as (u' & Gu' & E1 & E2 & E3 & _). exists u'. split; congruence. }
      exists st'. rewrite E. split.
      * f_equal; [lia|]. f_equal. unfold inner at 2. rewrite G, NI. cbn [app]. clear -Q0.
        assert (FE : flat_map (inner (set_scratch st h 0)) ins = flat_map (inner st) ins).
        { induction ins as [|x ins IH]; [reflexivity|]. cbn [flat_map]. rewrite IH. f_equal. symmetry. now apply inner_eqs. }
        rewrite FE. clear FE. induction (flat_map (inner st) ins) as [|x l IH]; [reflexivity|]. cbn [existsb]. rewrite IH. f_equal. symmetry. now apply dirty_eqs.
      * split; [eapply eqs_trans; eauto|]. intros k u w A0 B0. destruct (scratch_get st h 0 k u A0) as (y & Gy & _ & SC).
        destruct (K k y w Gy B0) as [->| ->]; [|now right]. rewrite SC. destruct (Nat.eqb k h); auto.
Qed.
Lemma inputs_only ins : forall st size dirty st' size' dirty', wf_store st -> check_inputs st size dirty ins = IOk st' size' dirty' -> Forall (fun h => exists n, argument st h n) ins.
Proof.
  induction ins as [|h ins IH]; intros st size dirty st' size' dirty' W H; [constructor|]. cbn [check_inputs] in H.
  destruct (nth_error st h) as [v|] eqn:G; [|discriminate]. destruct (v_input v) as [d|] eqn:NI.
  - destruct (nth_error st d) as [w|] eqn:D; [|discriminate]. destruct (v_size v =? 1) eqn:S1; [|discriminate]. apply N.eqb_eq in S1. constructor.
    + exists (v_size w), v. split; [exact G|]. split; [exact S1|]. left. exists d, w. auto.
    + eapply IH; eauto.
  - destruct (v_lit v) eqn:L; [|discriminate]. destruct (v_size v =? 1) eqn:S1; [|discriminate]. apply N.eqb_eq in S1. constructor.
    + exists (v_scratch v), v. split; [exact G|]. split; [exact S1|]. right. auto.
    + pose proof (scratch_eqs st h 0) as Q0. apply IH in H; [|eapply eqs_wf; eauto]. clear -H Q0. apply eqs_sym in Q0.
      induction H as [|a l X _ IH]; constructor; [|exact IH]. destruct X as (n & u & Gu & Su & X). destruct (eqs_nth _ _ _ _ Q0 Gu) as (u' & Gu' & E1 & E2 & E3 & E4 & E5 & E6 & E7).
      destruct X as [(d & w & D1 & D2 & D3)|[X1 X2]].
      * destruct (eqs_nth _ _ _ _ Q0 D2) as (w' & D2' & _ & D3' & _). exists n, u'. split; [exact Gu'|]. split; [congruence|]. left. exists d, w'. repeat split; congruence.
      * exists (v_scratch u'), u'. split; [exact Gu'|]. split; [congruence|]. right. split; congruence.
Qed.

(** ** Outputs *)
Lemma outs_ok st os0 os : (forall h, In h os0 \/ In h os -> (h < length st)%nat) -> exists b, check_outs st os0 os = Some b /\
  (b = true <-> Forall2 (fun a b => type_of st a = type_of st b /\ size_of st b = 1) os0 os).
Proof.
  revert os. induction os0 as [|a os0 IH]; intros [|b os] L; cbn [check_outs].
  - exists true. split; [reflexivity|]. split; [constructor|reflexivity].
  - exists false. split; [reflexivity|]. split; [discriminate|inversion 1].
  - exists false. split; [reflexivity|]. split; [discriminate|inversion 1].
  - assert (La : (a < length st)%nat) by (apply L; left; now left). assert (Lb : (b < length st)%nat) by (apply L; right; now left).
    destruct (nth_error st a) as [v|] eqn:Ga; [|apply nth_error_None in Ga; lia]. destruct (nth_error st b) as [w|] eqn:Gb; [|apply nth_error_None in Gb; lia].
    cbn [bind]. destruct (IH os) as (x & E & H). { intros h [I0|I0]; apply L; [left|right]; now right. }
    assert (T : type_of st a = v_ty v) by (unfold type_of; now rewrite Ga). assert (T2 : type_of st b = v_ty w) by (unfold type_of; now rewrite Gb).
    assert (SZ : size_of st b = v_size w) by (unfold size_of; now rewrite Gb).
    destruct ((v_ty v =? v_ty w) && (v_size w =? 1)) eqn:C.
    + apply andb_true_iff in C. destruct C as [C1 C2]. apply N.eqb_eq in C1, C2. exists x. split; [exact E|]. rewrite H. split.
      * intros F. constructor; [split; congruence|exact F].
      * inversion 1; assumption.
    + exists false. split; [reflexivity|]. split; [discriminate|]. inversion 1 as [|? ? ? ? [X1 X2]]; subst. apply andb_false_iff in C. destruct C as [C|C]; apply N.eqb_neq in C; congruence.
Qed.
Lemma insts_ok st os0 oss : (forall os h, In os (os0 :: oss) -> In h os -> (h < length st)%nat) -> exists b, check_insts st os0 oss = Some b /\
  (b = true <-> forall os, In os oss -> Forall2 (fun a b => type_of st a = type_of st b /\ size_of st b = 1) os0 os).
Proof.
  induction oss as [|os oss IH]; intros L; cbn [check_insts]. { exists true. split; [reflexivity|]. split; [intros _ os []|reflexivity]. }
  destruct (outs_ok st os0 os) as (x & E & H). { intros h [I0|I0]; eapply L; eauto; [now left|now right; left]. }
  rewrite E. cbn [bind]. destruct IH as (y & E2 & H2). { intros os' h [<-|I1] I2; eapply L; eauto; [now left|now right; right]. }
  destruct x.
  - exists y. split; [exact E2|]. rewrite H2. split; [|intros A os' I0; apply A; now right]. intros A os' [<-|I0]; [now apply H|now apply A].
  - exists false. split; [reflexivity|]. split; [discriminate|]. intros A. apply H. apply A. now left.
Qed.

(** ** The call *)
Lemma compat_iff size n : compat size n = true <-> fits size n.
Proof. unfold compat, fits. rewrite orb_true_iff, !N.eqb_eq. tauto. Qed.
Lemma acceptable_eqs a b still self mask ins oss ses size : eqs a b -> acceptable still a self mask ins oss ses size -> acceptable still b self mask ins oss ses size.
Proof.
  intros Q [H1 H2 H3 H4 H5 H6 H7]. assert (FM : flat_map (inner b) ins = flat_map (inner a) ins).
  { clear -Q. induction ins as [|x ins IH]; [reflexivity|]. cbn [flat_map]. rewrite IH. f_equal. symmetry. now apply inner_eqs. }
  assert (OU : outer b self mask ins = outer a self mask ins) by (unfold outer; do 2 f_equal; exact FM).
  constructor.
  - exact H1.
  - now rewrite <- (type_eqs _ _ _ Q).
  - now rewrite <- (type_eqs _ _ _ Q).
  - intros os I0. specialize (H4 os I0). clear -H4 Q. induction H4 as [|x y lx ly [A B] _ IH]; constructor; [|exact IH]. now rewrite <- !(type_eqs _ _ _ Q), <- (size_eqs _ _ _ Q).
  - rewrite OU. intros (h & I0 & D). apply H5. exists h. split; [exact I0|]. apply dirtyb_iff. rewrite (dirty_eqs _ _ _ Q). now apply dirtyb_iff.
  - now rewrite <- !(size_eqs _ _ _ Q).
  - intros hs x v I0 C G. destruct (eqs_nth _ _ _ _ (eqs_sym _ _ Q) G) as (w & G' & _ & E2 & _). rewrite E2. eapply H7; [exact I0| |exact G']. eapply captured_eqs; [apply eqs_sym|]; eauto.
Qed.
Lemma fresh_less a b gen : eqs a b -> fresh a gen -> (forall h v w, nth_error a h = Some v -> nth_error b h = Some w -> v_scratch w = v_scratch v \/ v_scratch w = 0) -> fresh b gen.
Proof.
  intros Q (B & H) K. split; [exact B|]. intros h w G. destruct (eqs_nth _ _ _ _ (eqs_sym _ _ Q) G) as (v & G' & _ & _ & E3 & _). destruct (H h v G') as [L|L]; [left; congruence|right].
  destruct (K h v w G' G) as [->| ->]; lia.
Qed.
Lemma self_mask_size st self mask sv mv : nth_error st self = Some sv -> nth_error st mask = Some mv -> forall ns,
  N.max (N.max (v_size sv) (v_size mv)) (largest ns) = largest (size_of st self :: size_of st mask :: ns).
Proof. intros A B ns. unfold size_of. rewrite A, B. symmetry. apply N.max_assoc. Qed.

Theorem call_ok optimize stack still st gen self mask ins ns oss ses :
  wf_store st -> fresh st gen -> Forall2 (argument st) ins ns -> length ses = length oss ->
  (self < length st)%nat -> (mask < length st)%nat -> (forall hs h, In hs (oss ++ ses) -> In h hs -> (h < length st)%nat) ->
  let size := largest (size_of st self :: size_of st mask :: ns) in
  match var_call optimize stack still st gen self mask ins oss ses with
  | FFault => False
  | FRaise => ~ acceptable still st self mask ins oss ses size
  | FOk st' gen' c => acceptable still st self mask ins oss ses size /\ eqs st st' /\ fresh st' gen' /\ c_size c = size /\ c_mask c = mask_size stack size /\
      c_outs c = outputs st' optimize size (mask_size stack size) oss 0 (hd [] oss) /\
      Forall2 (slots_ok st) (map (fun x => fst x ++ snd x) (combine oss ses)) (c_slots c)
  end.
Proof.
  intros W F AR LS L1 L2 L3 size. unfold var_call. destruct oss as [|os0 oss]. { intros [A _ _ _ _ _ _]. now apply A. }
  set (al := os0 :: oss) in *.
  destruct (nth_error st self) as [sv|] eqn:GS; [|apply nth_error_None in GS; lia]. destruct (nth_error st mask) as [mv|] eqn:GM; [|apply nth_error_None in GM; lia].
  assert (TS : type_of st self = v_ty sv) by (unfold type_of; now rewrite GS). assert (TM : type_of st mask = v_ty mv) by (unfold type_of; now rewrite GM).
  assert (SS : size_of st self = v_size sv) by (unfold size_of; now rewrite GS). assert (SM : size_of st mask = v_size mv) by (unfold size_of; now rewrite GM).
  destruct (negb (v_ty sv =? TUInt32) || negb (v_ty mv =? TBool)) eqn:TY.
  { intros [_ A B _ _ _ _]. apply orb_true_iff in TY. destruct TY as [TY|TY]; apply negb_true_iff, N.eqb_neq in TY; congruence. }
  apply orb_false_iff in TY. destruct TY as [TY1 TY2]. apply negb_false_iff, N.eqb_eq in TY1, TY2.
  destruct (inputs_ok ins ns st (N.max (v_size sv) (v_size mv)) (v_dirty sv || v_dirty mv) W) as (st1 & E1 & Q1 & K1).
  { clear -AR. induction AR; constructor; [now left|assumption]. }
  rewrite E1. rewrite (self_mask_size st self mask sv mv GS GM ns). fold size.
  destruct (insts_ok st1 os0 al) as (ob & E2 & H2).
  { intros os h I1 I2. rewrite <- (eqs_len _ _ Q1). apply (L3 os h); [|exact I2]. apply in_or_app. left. destruct I1 as [<-|I1]; [now left|exact I1]. }
  rewrite E2. destruct ob.
  2:{ intros A. apply (acceptable_eqs _ _ _ _ _ _ _ _ _ Q1) in A. destruct A as [_ _ _ A _ _ _]. assert (X : false = true) by (apply H2; exact A). discriminate. }
  assert (OUTS : forall os, In os al -> Forall2 (fun a b => type_of st a = type_of st b /\ size_of st b = 1) (hd [] al) os).
  { intros os I0. pose proof (proj1 H2 eq_refl os I0) as A. cbn [hd al]. clear -A Q1. induction A as [|x y lx ly [A B] _ IH]; constructor; [|exact IH].
    now rewrite !(type_eqs _ _ _ Q1), (size_eqs _ _ _ Q1). }
  set (D1 := (v_dirty sv || v_dirty mv) || existsb (dirtyb st) (flat_map (inner st) ins)).
  assert (DD : D1 = true <-> exists h, In h (outer st self mask ins) /\ is_dirty st h).
  { unfold D1, outer. rewrite !orb_true_iff, existsb_exists. fold (inner st). split.
    - intros [[A|A]|(h & A & B)].
      + exists self. split; [now left|]. exists sv. auto.
      + exists mask. split; [right; now left|]. exists mv. auto.
      + exists h. split; [right; now right|]. now apply dirtyb_iff.
    - intros (h & [<-|[<-|A]] & B).
      + left. left. destruct B as (v & G & D). congruence.
      + left. right. destruct B as (v & G & D). congruence.
      + right. exists h. split; [exact A|]. now apply dirtyb_iff. }
  set (D2 := still self || still mask || existsb (fun h => match nth_error st1 h with Some v => match v_input v with Some d => still d | None => false end | None => false end) ins).
  assert (DS : D2 = false <-> forall h, In h (outer st self mask ins) -> still h = false).
  { assert (EX : existsb (fun h => match nth_error st1 h with Some v => match v_input v with Some d => still d | None => false end | None => false end) ins = existsb still (flat_map (inner st) ins)).
    { clear -Q1. induction ins as [|x ins IH]; [reflexivity|]. cbn [existsb flat_map]. rewrite existsb_app, <- IH. f_equal. rewrite (inner_eqs _ _ _ Q1). unfold inner.
      destruct (nth_error st1 x) as [v|]; [|reflexivity]. destruct (v_input v); [cbn; now rewrite orb_false_r|reflexivity]. }
    unfold D2, outer. rewrite EX. fold (inner st). rewrite !orb_false_iff. split.
    - intros [[A B] C] h [<-|[<-|I0]]; auto. destruct (still h) eqn:SH; [|reflexivity]. rewrite <- C. symmetry. apply existsb_exists. eauto.
    - intros A. split; [split; apply A; [now left|right; now left]|]. destruct (existsb still (flat_map (inner st) ins)) eqn:X; [|reflexivity].
      apply existsb_exists in X. destruct X as (h & I0 & SH). rewrite A in SH; [discriminate|]. right. now right. }
  destruct (D1 && D2) eqn:DX.
  { apply andb_true_iff in DX. destruct DX as [A B]. intros [_ _ _ _ X _ _]. apply DD in A. specialize (X A). apply DS in X. congruence. }
  assert (DOK : (exists h, In h (outer st self mask ins) /\ is_dirty st h) -> forall h, In h (outer st self mask ins) -> still h = false).
  { intros A. apply DD in A. rewrite A in DX. now apply DS. }
  destruct (negb (compat size (v_size sv)) || negb (compat size (v_size mv))) eqn:CX.
  { intros [_ _ _ _ _ [A B] _]. rewrite SS in A. rewrite SM in B. apply compat_iff in A, B. rewrite A, B in CX. discriminate. }
  apply orb_false_iff in CX. destruct CX as [C1 C2]. apply negb_false_iff, compat_iff in C1, C2.
  pose proof (eqs_wf _ _ Q1 W) as W1. pose proof (fresh_less _ _ _ Q1 F K1) as F1.
  pose proof (insts_analyzed (map (fun x => fst x ++ snd x) (combine al ses)) st1 gen W1 F1) as AN.
  specialize (AN ltac:(intros hs h I1 I2; rewrite <- (eqs_len _ _ Q1); apply in_map_iff in I1; destruct I1 as ([x y] & <- & I1); cbn [fst snd] in I2; apply in_app_or in I2;
    destruct I2 as [I2|I2]; [apply (L3 x h); [apply in_or_app; left; eapply in_combine_l; eauto|exact I2]|apply (L3 y h); [apply in_or_app; right; eapply in_combine_r; eauto|exact I2]])).
  destruct (analyze_insts st1 gen (map (fun x => fst x ++ snd x) (combine al ses))) as [[[[x st2] gen2] l]|]; [|exact AN]. destruct x.
  - destruct AN as (hs & I0 & NS). intros [_ _ _ _ _ _ A]. apply NS. intros y v C G. destruct (eqs_nth _ _ _ _ (eqs_sym _ _ Q1) G) as (w & G' & _ & E & _). rewrite E.
    eapply A; [exact I0| |exact G']. eapply captured_eqs; [apply eqs_sym|]; eauto.
  - destruct AN as (Q2 & F2 & FA & SC). split.
    + constructor; auto; try congruence. { discriminate. } { split; congruence || (rewrite ?SS, ?SM; assumption). }
      intros hs y v I0 C G. destruct (eqs_nth _ _ _ _ Q1 G) as (w & G' & _ & E & _). rewrite E. eapply (SC hs I0); [|exact G']. eapply captured_eqs; eauto.
    + split; [eapply eqs_trans; eauto|]. split; [exact F2|]. cbn [c_size c_mask c_outs c_slots]. repeat split.
      clear -FA Q1. induction FA as [|a b la lb H _ IH]; constructor; [|exact IH]. destruct H as [ND IN]. split; [exact ND|]. intros y. rewrite IN. split; apply captured_eqs; [apply eqs_sym|]; exact Q1.
Qed.

(** ** Results *)
Definition literal_out (st : store) (oss : list (list nat)) (o : nat) : Prop :=
  exists h v, (forall os, In os oss -> nth_error os o = Some h) /\ nth_error st h = Some v /\ v_lit v = true.
Lemma same_iff oss o h : same_handles oss o h = true <-> forall os, In os oss -> nth_error os o = Some h.
Proof.
  unfold same_handles. rewrite forallb_forall. split; intros H os I0; specialize (H os I0).
  - destruct (nth_error os o); [|discriminate]. apply Nat.eqb_eq in H. now subst.
  - rewrite H. apply Nat.eqb_refl.
Qed.
Lemma outputs_nth st optimize size msize oss os0 : forall k o t n d, nth_error (outputs st optimize size msize oss k os0) o = Some (t, n, d) ->
  exists h, nth_error os0 o = Some h /\ ((h < length st)%nat -> t = type_of st h /\
    (d = true -> n = N.max 1 msize /\ optimize = true /\ same_handles oss (k + o) h = true /\ exists v, nth_error st h = Some v /\ v_lit v = true) /\ (d = false -> n = size)).
Proof.
  induction os0 as [|h os0 IH]; intros k [|o] t n d H; cbn [outputs nth_error] in H; try discriminate.
  - exists h. split; [reflexivity|]. intros L. unfold type_of. destruct (nth_error st h) as [v|] eqn:G; [|apply nth_error_None in G; lia].
    rewrite Nat.add_0_r. destruct (same_handles oss k h) eqn:SH, optimize, (v_lit v) eqn:VL; cbn [andb] in H; injection H as <- <- <-; (split; [reflexivity|]); (split; [|try reflexivity; try discriminate]); try discriminate.
    intros _. repeat split. exists v. auto.
  - destruct (IH (S k) o t n d H) as (h' & A & B). exists h'. split; [exact A|]. intros L. specialize (B L). now rewrite <- plus_n_Sm.
Qed.
Lemma outputs_len st optimize size msize oss os0 : forall k, length (outputs st optimize size msize oss k os0) = length os0.
Proof. induction os0 as [|h os0 IH]; intros k; [reflexivity|]. cbn [outputs length]. now rewrite IH. Qed.
Lemma mask_size_ok stack size : stack_ok stack size -> 1 <= size -> mask_size stack size = size.
Proof.
  intros H L. unfold mask_size. destruct stack as [n|]; [|reflexivity]. specialize (H n eq_refl).
  destruct (size =? 1) eqn:E1; cbn [orb]. { apply N.eqb_eq in E1. specialize (H E1). lia. }
  destruct (n =? 1) eqn:E2; cbn [orb]. { apply N.eqb_eq in E2. lia. }
  destruct (n =? size) eqn:E3; [apply N.eqb_eq in E3; lia|reflexivity].
Qed.
Lemma assembles_ok st c self ins ns size : wf_store st -> (self < length st)%nat -> Forall2 (argument st) ins ns -> c_size c = size -> c_mask c = size ->
  fits size (size_of st self) -> Forall2 (fun h n => inner st h = [] \/ fits size n) ins ns -> assembles st c self ins = true.
Proof.
  intros W L A S1 S2 FS FI. unfold assembles. rewrite S1, S2. unfold size_of in FS. destruct (nth_error st self) as [v|] eqn:G; [|apply nth_error_None in G; lia].
  rewrite (proj2 (compat_iff _ _) FS), (proj2 (compat_iff _ _) (or_intror eq_refl)). cbn [andb]. apply forallb_forall. intros h I0.
  induction A as [|a n la ln X _ IH]; [destruct I0|]. inversion FI as [|? ? ? ? F0 FI' E1 E2]; subst. destruct I0 as [->|I0]; [|now apply IH].
  destruct X as (w & Gw & _ & X). rewrite Gw. unfold inner in F0. rewrite Gw in F0. destruct X as [(d & u & D1 & D2 & D3)|[X1 X2]].
  - rewrite D1 in *. rewrite D2. destruct F0 as [F0|F0]; [discriminate|]. apply compat_iff. now rewrite D3.
  - destruct (W h w Gw) as (_ & _ & WI). destruct (v_input w) as [d|] eqn:NI; [|reflexivity]. destruct (WI d eq_refl). congruence.
Qed.

(** ** Wrapped arguments *)
Lemma argument_app st l h n : argument st h n -> argument (st ++ l) h n.
Proof.
  assert (A : forall k v, nth_error st k = Some v -> nth_error (st ++ l) k = Some v).
  { intros k v G. rewrite nth_error_app1; [exact G|]. apply nth_error_Some. congruence. }
  intros (v & G & S1 & X). exists v. split; [auto|]. split; [exact S1|]. destruct X as [(d & w & D1 & D2 & D3)|X]; [left|now right]. exists d, w. auto.
Qed.
Lemma call_input_ok optimize st h v : nth_error st h = Some v -> wf_store st -> exists new, call_input optimize st h = Some (st ++ [new], length st) /\ argument (st ++ [new]) (length st) (v_size v) /\ v_ty new = v_ty v /\ wf_store (st ++ [new]).
Proof.
  intros G W. unfold call_input. rewrite G. cbn [bind]. eexists. split; [reflexivity|].
  assert (N0 : forall new : var, nth_error (st ++ [new]) (length st) = Some new) by (intros new; rewrite nth_error_app2, Nat.sub_diag by lia; reflexivity).
  assert (LT : (h < length st)%nat) by (apply nth_error_Some; congruence).
  assert (WN : forall new : var, (forall d, In d (v_deps new) -> (d < length st)%nat) -> (v_lit new = true -> v_deps new = [] /\ v_capt new = false) ->
             (forall d, v_input new = Some d -> (d < length st)%nat /\ v_lit new = false) -> wf_store (st ++ [new])).
  { intros new A B C k u Gk. destruct (Nat.lt_ge_cases k (length st)) as [L|L].
    - rewrite nth_error_app1 in Gk by exact L. apply (W k u Gk).
    - rewrite nth_error_app2 in Gk by exact L. destruct (k - length st)%nat as [|m] eqn:E; [|destruct m; discriminate]. injection Gk as <-. replace k with (length st) by lia. auto. }
  destruct (v_lit v && optimize) eqn:E.
  - split; [|split; [reflexivity|apply WN; cbn; [intros d []|auto|discriminate]]]. eexists. split; [apply N0|]. split; [reflexivity|]. right. auto.
  - split; [|split; [reflexivity|apply WN; cbn]]. 2:{ intros d [<-|[]]. exact LT. } 2:discriminate. 2:{ intros d [= <-]. auto. }
    eexists. split; [apply N0|]. split; [reflexivity|]. left. exists h, v. split; [reflexivity|]. split; [|reflexivity]. now rewrite nth_error_app1.
Qed.
