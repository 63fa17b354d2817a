From Verif Require Import Base Rec_Model Rec_Spec.
Local Open Scope N_scope.

(** ** Stores that differ in stamps *)
Lemma eqv_refl v : eqv v v. Proof. repeat split. Qed.
Lemma eqv_trans a b c : eqv a b -> eqv b c -> eqv a c.
Proof. unfold eqv. intros (A1 & A2 & A3 & A4 & A5 & A6 & A7) (B1 & B2 & B3 & B4 & B5 & B6 & B7). repeat split; congruence. Qed.
Lemma eqv_sym a b : eqv a b -> eqv b a.
Proof. unfold eqv. intros (A1 & A2 & A3 & A4 & A5 & A6 & A7). repeat split; congruence. Qed.
Lemma eqs_refl st : eqs st st. Proof. unfold eqs. induction st; constructor; auto using eqv_refl. Qed.
Lemma eqs_trans a b c : eqs a b -> eqs b c -> eqs a c.
Proof.
  unfold eqs. intros H. revert c. induction H as [|x y a b E _ IH]; intros c H2; inversion H2; subst; constructor; eauto using eqv_trans.
Qed.
Lemma eqs_sym a b : eqs a b -> eqs b a.
Proof. unfold eqs. induction 1; constructor; auto using eqv_sym. Qed.
Lemma eqs_nth a b h v : eqs a b -> nth_error a h = Some v -> exists w, nth_error b h = Some w /\ eqv v w.
Proof.
  intros H. revert h. induction H as [|x y a b E _ IH]; intros [|h] G; cbn in *; try discriminate; eauto. injection G as ->. eauto.
Qed.
Lemma eqs_len a b : eqs a b -> length a = length b.
Proof. unfold eqs. induction 1; cbn; congruence. Qed.
Lemma nth_set (st : store) h x k : (h < length st)%nat -> nth_error (set_nth h x st) k = if Nat.eqb k h then Some x else nth_error st k.
Proof.
  revert h k. induction st as [|y st IH]; intros [|h] [|k] L; cbn in *; try lia; auto.
  apply IH. lia.
Qed.
Lemma scratch_get st h x k v : nth_error st k = Some v -> exists w, nth_error (set_scratch st h x) k = Some w /\ eqv v w /\ v_scratch w = (if Nat.eqb k h then x else v_scratch v).
Proof.
  intros G. unfold set_scratch. destruct (nth_error st h) as [u|] eqn:E.
  - rewrite nth_set by (apply nth_error_Some; congruence). destruct (Nat.eqb_spec k h) as [-> |].
    + replace u with v by congruence. eexists. split; [reflexivity|]. split; [repeat split|reflexivity].
    + exists v. auto using eqv_refl.
  - exists v. split; [exact G|]. split; [apply eqv_refl|]. destruct (Nat.eqb_spec k h) as [-> |]; [congruence|reflexivity].
Qed.
Lemma scratch_eqs st h x : eqs st (set_scratch st h x).
Proof.
  assert (G : forall (st : store) h v w, nth_error st h = Some v -> eqv v w -> eqs st (set_nth h w st)).
  { clear. induction st as [|y st IH]; intros [|h] v w E Q; cbn in *; try discriminate.
    - injection E as ->. constructor; [exact Q|apply eqs_refl].
    - constructor; [apply eqv_refl|]. eapply IH; eauto. }
  unfold set_scratch. destruct (nth_error st h) as [v|] eqn:E; [|apply eqs_refl]. eapply G; [exact E|]. repeat split.
Qed.
Lemma eqs_wf a b : eqs a b -> wf_store a -> wf_store b.
Proof.
  intros H W h v G. apply eqs_sym in H. destruct (eqs_nth _ _ _ _ H G) as (w & G' & E). destruct E as (E1 & E2 & E3 & E4 & E5 & E6 & E7).
  specialize (W h w G'). rewrite E3, E4, E5, E6. exact W.
Qed.
Lemma eqs_reach a b h x : eqs a b -> Reach a h x -> Reach b h x.
Proof.
  intros H R. induction R as [|h d x v G NI D _ IH]; [constructor|]. destruct (eqs_nth _ _ _ _ H G) as (w & G' & E). destruct E as (E1 & E2 & E3 & E4 & E5 & E6 & E7).
  eapply ReachStep; [exact G'|rewrite <- E5; exact NI|rewrite <- E6; exact D|exact IH].
Qed.

Lemma NoDup_app {A} (a b : list A) : NoDup a -> NoDup b -> (forall x, In x a -> In x b -> False) -> NoDup (a ++ b).
Proof.
  intros N1 N2 D. induction N1 as [|x a NI N1 IH]; [exact N2|]. cbn. constructor.
  - rewrite in_app_iff. intros [H|H]; [contradiction|]. apply (D x); [now left|exact H].
  - apply IH. intros y H1 H2. apply (D y); [now right|exact H2].
Qed.
(** ** Traversal *)
Section Stamp.
Variable stamp : N.
Definition marked (st : store) (h : nat) : Prop := exists v, nth_error st h = Some v /\ v_scratch v = stamp.
Definition newly (st st' : store) (h : nat) : Prop := marked st' h /\ ~ marked st h.
Definition slot (st : store) (h : nat) : Prop := exists v, nth_error st h = Some v /\ v_input v = None /\ v_capt v = true.
Record post (st st' : store) (new : list nat) (from : nat -> Prop) : Prop := {
  p_eqs : eqs st st';
  p_mono : forall x, marked st x -> marked st' x;
  p_nodup : NoDup new;
  p_new : forall x, In x new <-> newly st st' x /\ slot st x;
  p_from : forall x, newly st st' x -> from x;
  p_closed : forall x v, newly st st' x -> nth_error st x = Some v -> v_input v = None ->
    (v_capt v = true -> v_size v = 1) /\ forall d, In d (v_deps v) -> marked st' d;
  p_keep : forall h v w, nth_error st h = Some v -> nth_error st' h = Some w -> v_scratch w = v_scratch v \/ v_scratch w = stamp
}.
Lemma marked_dec st h : {marked st h} + {~ marked st h}.
Proof.
  unfold marked. destruct (nth_error st h) as [v|]; [|right; intros (v & E & _); discriminate].
  destruct (N.eq_dec (v_scratch v) stamp) as [E|E]; [left; eauto|right]. intros (w & E1 & E2). injection E1 as ->. contradiction.
Qed.
Lemma slot_eqs a b h : eqs a b -> slot a h -> slot b h.
Proof. intros H (v & G & A & B). destruct (eqs_nth _ _ _ _ H G) as (w & G' & E). destruct E as (_ & _ & _ & E4 & E5 & _). exists w. repeat split; congruence. Qed.
Lemma post_refl st P : post st st [] P.
Proof. constructor; try (intros; unfold newly in *; tauto). - apply eqs_refl. - constructor. - intros x. split; [intros []|]. unfold newly. tauto.
  - intros h v w A B. left. congruence. Qed.
Lemma post_trans a b c l1 l2 (P : nat -> Prop) : post a b l1 P -> post b c l2 P -> post a c (l1 ++ l2) P.
Proof.
  intros H1 H2. pose proof (p_eqs _ _ _ _ H1) as Q1. pose proof (p_eqs _ _ _ _ H2) as Q2.
  assert (SPL : forall x, newly a c x -> newly a b x \/ newly b c x).
  { intros x (M & NM). destruct (marked_dec b x); [left|right]; split; assumption. }
  constructor.
  - eapply eqs_trans; eauto.
  - intros x M. now apply (p_mono _ _ _ _ H2), (p_mono _ _ _ _ H1).
  - apply NoDup_app; [apply H1|apply H2|]. intros x A B. apply (p_new _ _ _ _ H1) in A. apply (p_new _ _ _ _ H2) in B. destruct A as [[A _] _], B as [[_ B] _]. contradiction.
  - intros x. rewrite in_app_iff, (p_new _ _ _ _ H1), (p_new _ _ _ _ H2). split.
    + intros [[(A & B) S0]|[(A & B) S0]].
      * split; [|exact S0]. split; [now apply (p_mono _ _ _ _ H2)|exact B].
      * split; [|eapply slot_eqs; [apply eqs_sym|]; eauto]. split; [exact A|]. intros M. apply B. now apply (p_mono _ _ _ _ H1).
    + intros (A & S0). destruct (SPL x A); [left|right]; split; auto. eapply slot_eqs; eauto.
  - intros x A. destruct (SPL x A) as [B|B]; [now apply (p_from _ _ _ _ H1)|now apply (p_from _ _ _ _ H2)].
  - intros x v A G NI. destruct (SPL x A) as [B|B].
    + destruct (p_closed _ _ _ _ H1 x v B G NI) as [C D]. split; [exact C|]. intros d I. now apply (p_mono _ _ _ _ H2), D.
    + destruct (eqs_nth _ _ _ _ Q1 G) as (w & G' & E1 & E2 & E3 & E4 & E5 & E6 & E7). rewrite E4, E2, E6. apply (p_closed _ _ _ _ H2 x w B G'). congruence.
  - intros h v w A C. destruct (eqs_nth _ _ _ _ Q1 A) as (u & B & _). destruct (p_keep _ _ _ _ H2 h u w B C) as [-> | ->]; [|now right]. now apply (p_keep _ _ _ _ H1 h v u).
Qed.
Lemma post_weaken a b l (P Q : nat -> Prop) : (forall x, P x -> Q x) -> post a b l P -> post a b l Q.
Proof. intros H [H1 H2 H3 H4 H5 H6 H7]. constructor; auto. Qed.

Definition bad (st : store) (h : nat) : Prop := exists x v, Reach st h x /\ nth_error st x = Some v /\ v_input v = None /\ v_capt v = true /\ v_size v <> 1.
Definition outcome (st : store) (slots : list nat) (hs : list nat) (r : analyzed) : Prop :=
  match r with
  | AFault => False
  | ARaise => exists h, In h hs /\ bad st h
  | AOk st' slots' => exists new, slots' = slots ++ new /\ post st st' new (fun x => exists h, In h hs /\ Reach st h x) /\ forall h, In h hs -> marked st' h
  end.
Lemma all_outcome fuel : (forall st slots h, wf_store st -> (h < length st)%nat -> (h < fuel)%nat -> outcome st slots [h] (analyze fuel stamp st slots h)) ->
  forall hs st slots, wf_store st -> (forall h, In h hs -> (h < length st)%nat /\ (h < fuel)%nat) -> outcome st slots hs (analyze_all fuel stamp st slots hs).
Proof.
  intros IH. induction hs as [|h hs IHl]; intros st slots W L; cbn [analyze_all].
  - exists []. rewrite app_nil_r. split; [reflexivity|]. split; [apply post_refl|intros h []].
  - destruct (L h (or_introl eq_refl)) as [L1 L2]. specialize (IH st slots h W L1 L2). destruct (analyze fuel stamp st slots h) as [| |st1 sl1]; [exact IH| |].
    + destruct IH as (h' & [<-|[]] & B). exists h. split; [now left|exact B].
    + destruct IH as (n1 & -> & P1 & M1). pose proof (p_eqs _ _ _ _ P1) as Q1.
      specialize (IHl st1 (slots ++ n1) (eqs_wf _ _ Q1 W)). destruct (analyze_all fuel stamp st1 (slots ++ n1) hs) as [| |st2 sl2].
      * apply IHl. intros h' I. rewrite <- (eqs_len _ _ Q1). apply L. now right.
      * destruct IHl as (h' & I & x & v & R & G & B1 & B2 & B3). { intros h' I. rewrite <- (eqs_len _ _ Q1). apply L. now right. }
        exists h'. split; [now right|]. destruct (eqs_nth _ _ _ _ (eqs_sym _ _ Q1) G) as (w & G' & E1 & E2 & E3 & E4 & E5 & E6 & E7).
        exists x, w. repeat split; try congruence. eapply eqs_reach; [apply eqs_sym|]; eauto.
      * destruct IHl as (n2 & -> & P2 & M2). { intros h' I. rewrite <- (eqs_len _ _ Q1). apply L. now right. }
        exists (n1 ++ n2). split; [now rewrite app_assoc|]. split.
        { eapply post_trans.
          - eapply post_weaken; [|exact P1]. intros x (h' & [<-|[]] & R). exists h. split; [now left|exact R].
          - eapply post_weaken; [|exact P2]. intros x (h' & I & R). exists h'. split; [now right|]. eapply eqs_reach; [apply eqs_sym|]; eauto. }
        intros h' [<-|I]; [|now apply M2]. apply (p_mono _ _ _ _ P2), M1. now left.
Qed.
Lemma deps_all fuel l : forall st slots,
  (fix deps (l : list nat) (st : store) (slots : list nat) : analyzed :=
     match l with [] => AOk st slots | d :: l => match analyze fuel stamp st slots d with AOk st slots => deps l st slots | o => o end end) l st slots =
  analyze_all fuel stamp st slots l.
Proof. induction l as [|d l IH]; intros st slots; cbn [analyze_all]; [reflexivity|]. destruct (analyze fuel stamp st slots d); auto. Qed.

Lemma analyze_outcome fuel : forall st slots h, wf_store st -> (h < length st)%nat -> (h < fuel)%nat -> outcome st slots [h] (analyze fuel stamp st slots h).
Proof.
  induction fuel as [|fuel IH]; intros st slots h W L F; [lia|]. cbn [analyze].
  destruct (nth_error st h) as [v|] eqn:G; [|apply nth_error_None in G; lia].
  destruct (v_scratch v =? stamp) eqn:E0.
  { apply N.eqb_eq in E0. exists []. rewrite app_nil_r. split; [reflexivity|]. split; [apply post_refl|]. intros h' [<-|[]]. exists v. auto. }
  apply N.eqb_neq in E0. pose proof (scratch_eqs st h stamp) as Q0.
  assert (NM : ~ marked st h) by (intros (w & A & B); congruence).
  assert (MK : forall x, marked (set_scratch st h stamp) x <-> marked st x \/ x = h).
  { intros x. split.
    - intros (w & A & B). destruct (eqs_nth _ _ _ _ (eqs_sym _ _ Q0) A) as (u & C & _). destruct (scratch_get st h stamp x u C) as (w' & D & _ & S0).
      replace w' with w in * by congruence. destruct (Nat.eqb_spec x h); [now right|left]. exists u. split; congruence.
    - intros [(u & A & B)| ->].
      + destruct (scratch_get st h stamp x u A) as (w & D & _ & S0). exists w. split; [exact D|]. rewrite S0. now destruct (Nat.eqb x h).
      + destruct (scratch_get st h stamp h v G) as (w & D & _ & S0). exists w. split; [exact D|]. now rewrite S0, Nat.eqb_refl. }
  assert (NW : forall x, newly st (set_scratch st h stamp) x <-> x = h).
  { intros x. unfold newly. rewrite MK. split; [intros [[A| ->] B]; [contradiction|reflexivity]|intros ->; tauto]. }
  assert (KEEP : forall k u w, nth_error st k = Some u -> nth_error (set_scratch st h stamp) k = Some w -> v_scratch w = v_scratch u \/ v_scratch w = stamp).
  { intros k u w A B. destruct (scratch_get st h stamp k u A) as (w' & C & _ & S0). replace w' with w in * by congruence. rewrite S0. destruct (Nat.eqb k h); auto. }
  destruct (v_input v) as [d0|] eqn:NI.
  { exists []. rewrite app_nil_r. split; [reflexivity|]. split; [|intros h' [<-|[]]; apply MK; now right].
    constructor; auto.
    - intros x M. apply MK. now left.
    - constructor.
    - intros x. split; [intros []|]. rewrite NW. intros (-> & w & A & B & C). congruence.
    - intros x A. apply NW in A. subst x. exists h. split; [now left|constructor].
    - intros x w A. apply NW in A. subst x. congruence. }
  destruct (v_capt v && negb (v_size v =? 1)) eqn:BAD.
  { apply andb_true_iff in BAD. destruct BAD as [B1 B2]. apply negb_true_iff, N.eqb_neq in B2. exists h. split; [now left|]. exists h, v. repeat split; auto. constructor. }
  rewrite deps_all. destruct (W h v G) as (WD & _).
  pose proof (all_outcome fuel IH (v_deps v) (set_scratch st h stamp) (if v_capt v then slots ++ [h] else slots) (eqs_wf _ _ Q0 W)) as AO.
  specialize (AO ltac:(intros d I; rewrite <- (eqs_len _ _ Q0); specialize (WD d I); lia)).
  destruct (analyze_all fuel stamp (set_scratch st h stamp) (if v_capt v then slots ++ [h] else slots) (v_deps v)) as [| |st' sl'].
  - exact AO.
  - destruct AO as (d & I & x & w & R & G' & B1 & B2 & B3). exists h. split; [now left|].
    destruct (eqs_nth _ _ _ _ (eqs_sym _ _ Q0) G') as (u & G2 & E1 & E2 & E3 & E4 & E5 & E6 & E7). exists x, u. repeat split; try congruence.
    econstructor; [exact G|exact NI|exact I|]. eapply eqs_reach; [apply eqs_sym|]; eauto.
  - destruct AO as (new & -> & P & M).
    exists ((if v_capt v then [h] else []) ++ new). split; [destruct (v_capt v); [now rewrite app_assoc|reflexivity]|].
    assert (FROM : forall x, (exists h0, In h0 (v_deps v) /\ Reach (set_scratch st h stamp) h0 x) -> exists h0, In h0 [h] /\ Reach st h0 x).
    { intros x (d & I & R). exists h. split; [now left|]. econstructor; [exact G|exact NI|exact I|]. eapply eqs_reach; [apply eqs_sym|]; eauto. }
    pose proof (p_eqs _ _ _ _ P) as Q1.
    split; [|intros h' [<-|[]]; apply (p_mono _ _ _ _ P), MK; now right].
    assert (SPL : forall x, newly st st' x -> x = h \/ newly (set_scratch st h stamp) st' x).
    { intros x (A & B). destruct (Nat.eq_dec x h); [now left|right]. split; [exact A|]. rewrite MK. tauto. }
    constructor.
    + eapply eqs_trans; eauto.
    + intros x A. apply (p_mono _ _ _ _ P), MK. now left.
    + destruct (v_capt v); [|apply P]. constructor; [|apply P]. intros I. apply (p_new _ _ _ _ P) in I. destruct I as [[_ I] _]. apply I, MK. now right.
    + intros x. rewrite in_app_iff, (p_new _ _ _ _ P). split.
      * intros [A|[(A & B) S0]].
        -- destruct (v_capt v) eqn:VC; [|destruct A]. destruct A as [<-|[]]. split; [|exists v; auto]. split; [apply (p_mono _ _ _ _ P), MK; now right|exact NM].
        -- split; [|eapply slot_eqs; [apply eqs_sym|]; eauto]. split; [exact A|]. intros C. apply B, MK. now left.
      * intros (A & S0). destruct (SPL x A) as [-> |B].
        -- left. destruct S0 as (u & C1 & C2 & C3). replace u with v in * by congruence. rewrite C3. now left.
        -- right. split; [exact B|]. eapply slot_eqs; eauto.
    + intros x A. destruct (SPL x A) as [-> |B]; [exists h; split; [now left|constructor]|]. now apply FROM, (p_from _ _ _ _ P).
    + intros x u A C NI2. destruct (SPL x A) as [-> |B].
      * replace u with v in * by congruence. split; [|exact M]. intros VC. rewrite VC in BAD. cbn in BAD. apply negb_false_iff, N.eqb_eq in BAD. exact BAD.
      * destruct (eqs_nth _ _ _ _ Q0 C) as (w & G2 & E1 & E2 & E3 & E4 & E5 & E6 & E7). rewrite E4, E2, E6. apply (p_closed _ _ _ _ P x w B G2). congruence.
    + intros k u w A C. destruct (eqs_nth _ _ _ _ Q0 A) as (y & B & _). destruct (p_keep _ _ _ _ P k y w B C) as [-> | ->]; [|now right]. now apply (KEEP k u y).
Qed.

(** Where only literals carry the current stamp: exactly what is reachable is visited *)
Lemma reach_marked st st' new hs : post st st' new (fun x => exists h, In h hs /\ Reach st h x) -> wf_store st ->
  (forall h v, nth_error st h = Some v -> v_scratch v = stamp -> v_lit v = true) -> (forall h, In h hs -> marked st' h) ->
  forall h x, Reach st h x -> marked st' h -> marked st' x.
Proof.
  intros P W LIT M h x R. induction R as [|h d x v G NI D _ IH]; [auto|]. intros MH. apply IH.
  destruct (marked_dec st h) as [A|A].
  - destruct A as (u & B & C). replace u with v in * by congruence. destruct (W h v G) as (_ & WL & _). destruct (WL (LIT h v G C)) as [DE _]. rewrite DE in D. destruct D.
  - destruct (p_closed _ _ _ _ P h v (conj MH A) G NI) as [_ CL]. now apply CL.
Qed.
Lemma analyze_all_ok st hs : wf_store st -> (forall h, In h hs -> (h < length st)%nat) ->
  (forall h v, nth_error st h = Some v -> v_scratch v = stamp -> v_lit v = true) ->
  match analyze_all (S (length st)) stamp st [] hs with
  | AFault => False
  | ARaise => exists x v, captured st hs x /\ nth_error st x = Some v /\ v_size v <> 1
  | AOk st' slots => eqs st st' /\ NoDup slots /\ (forall x, In x slots <-> captured st hs x) /\
      (forall x v, captured st hs x -> nth_error st x = Some v -> v_size v = 1) /\
      (forall h v w, nth_error st h = Some v -> nth_error st' h = Some w -> v_scratch w = v_scratch v \/ v_scratch w = stamp)
  end.
Proof.
  intros W L LIT. pose proof (all_outcome (S (length st)) (analyze_outcome (S (length st))) hs st [] W) as AO.
  specialize (AO ltac:(intros h I; specialize (L h I); lia)). destruct (analyze_all (S (length st)) stamp st [] hs) as [| |st' slots].
  - exact AO.
  - destruct AO as (h & I & x & v & R & G & A & B & C). exists x, v. split; [|auto]. exists h, v. auto.
  - destruct AO as (new & -> & P & M). cbn [app]. split; [apply P|]. split; [apply P|].
    pose proof (reach_marked st st' new hs P W LIT M) as RM.
    assert (CAP : forall x, captured st hs x -> newly st st' x /\ slot st x).
    { intros x (h & v & I & R & G & NI & VC). split; [|exists v; auto]. split; [apply (RM h x R), M, I|].
      intros (u & A & B). replace u with v in * by congruence. destruct (W x v G) as (_ & WL & _). destruct (WL (LIT x v G B)). congruence. }
    split.
    + intros x. rewrite (p_new _ _ _ _ P). split; [|apply CAP]. intros (A & v & G & NI & VC). destruct (p_from _ _ _ _ P x A) as (h & I & R). exists h, v. auto.
    + split; [|apply P]. intros x v C G. destruct (CAP x C) as (A & u & G2 & NI & VC). replace u with v in * by congruence.
      destruct (p_closed _ _ _ _ P x v A G NI) as [D _]. auto.
Qed.
End Stamp.

(** ** All instances *)
Definition scalars (st : store) (hs : list nat) : Prop := forall x v, captured st hs x -> nth_error st x = Some v -> v_size v = 1.
Definition slots_ok (st : store) (hs slots : list nat) : Prop := NoDup slots /\ forall x, In x slots <-> captured st hs x.
Lemma captured_eqs a b hs x : eqs a b -> captured a hs x -> captured b hs x.
Proof.
  intros Q (h & v & I & R & G & NI & VC). destruct (eqs_nth _ _ _ _ Q G) as (w & G' & E1 & E2 & E3 & E4 & E5 & E6 & E7). exists h, w.
  split; [exact I|]. split; [eapply eqs_reach; eauto|]. repeat split; congruence.
Qed.
Lemma new_gen_ok st gen : fresh st gen -> let '(st', gen') := new_gen st gen in
  eqs st st' /\ gen' <= 0x7fffffff /\ (forall h v, nth_error st' h = Some v -> v_lit v = true \/ v_scratch v < 2 * gen') /\ 1 <= gen'.
Proof.
  intros (B & H). unfold new_gen. destruct (gen =? 0x7fffffff) eqn:E.
  - split; [|split; [lia|split; [|lia]]].
    + unfold eqs. clear. induction st; cbn [map]; constructor; auto. repeat split.
    + intros h v G. right. rewrite nth_error_map in G. destruct (nth_error st h); [|discriminate]. injection G as <-. cbn. lia.
  - apply N.eqb_neq in E. split; [apply eqs_refl|]. split; [lia|]. split; [|lia]. intros h v G. destruct (H h v G); [now left|right; lia].
Qed.
Lemma insts_analyzed insts : forall st gen, wf_store st -> fresh st gen -> (forall hs h, In hs insts -> In h hs -> (h < length st)%nat) ->
  match analyze_insts st gen insts with
  | None => False
  | Some (true, _, _, _) => exists hs, In hs insts /\ ~ scalars st hs
  | Some (false, st', gen', l) => eqs st st' /\ fresh st' gen' /\ Forall2 (slots_ok st) insts l /\ forall hs, In hs insts -> scalars st hs
  end.
Proof.
  induction insts as [|hs insts IH]; intros st gen W F L; cbn [analyze_insts].
  - split; [apply eqs_refl|]. split; [exact F|]. split; [constructor|intros hs []].
  - pose proof (new_gen_ok st gen F) as NG. destruct (new_gen st gen) as [st1 gen1]. destruct NG as (Q1 & B1 & LT & GE).
    pose proof (eqs_wf _ _ Q1 W) as W1.
    pose proof (analyze_all_ok (2 * gen1) st1 hs W1) as A. specialize (A ltac:(intros h HI; rewrite <- (eqs_len _ _ Q1); exact (L hs h (or_introl eq_refl) HI))). specialize (A ltac:(intros h v G E; destruct (LT h v G); [assumption|lia])).
    destruct (analyze_all (S (length st1)) (2 * gen1) st1 [] hs) as [| |st2 slots]; [exact A| |].
    + destruct A as (x & v & C & G & NS). exists hs. split; [now left|]. intros S0.
      destruct (eqs_nth _ _ _ _ (eqs_sym _ _ Q1) G) as (w & G' & E1 & E2 & _). apply NS. rewrite E2. apply (S0 x w); [|exact G'].
      eapply captured_eqs; [apply eqs_sym|]; eauto.
    + destruct A as (Q2 & ND & IN & SC & KP). pose proof (eqs_trans _ _ _ Q1 Q2) as Q.
      assert (F2 : fresh st2 gen1).
      { split; [exact B1|]. intros h v G. destruct (eqs_nth _ _ _ _ (eqs_sym _ _ Q2) G) as (u & G' & E). pose proof (KP h u v G' G) as K.
        destruct (LT h u G') as [A|A]; [left|right; destruct K as [-> | ->]; lia]. destruct E as (_ & _ & E3 & _). congruence. }
      specialize (IH st2 gen1 (eqs_wf _ _ Q W) F2). specialize (IH ltac:(intros hs' h I1 I2; rewrite <- (eqs_len _ _ Q); eapply L; [right|]; eauto)).
      assert (SC0 : scalars st hs).
      { intros x v C G. destruct (eqs_nth _ _ _ _ Q1 G) as (w & G' & E1 & E2 & _). rewrite E2. apply (SC x w); [eapply captured_eqs; eauto|exact G']. }
      assert (BACK : forall hs', scalars st2 hs' -> scalars st hs').
      { intros hs' S0 x v C G. destruct (eqs_nth _ _ _ _ Q G) as (w & G' & E1 & E2 & _). rewrite E2. apply (S0 x w); [eapply captured_eqs; eauto|exact G']. }
      assert (FORTH : forall hs', scalars st hs' -> scalars st2 hs').
      { intros hs' S0 x v C G. destruct (eqs_nth _ _ _ _ (eqs_sym _ _ Q) G) as (w & G' & E1 & E2 & _). rewrite E2. apply (S0 x w); [eapply captured_eqs; [apply eqs_sym|]; eauto|exact G']. }
      destruct (analyze_insts st2 gen1 insts) as [[[[x st3] gen3] l]|]; [|exact IH]. destruct x.
      * destruct IH as (hs' & I & NS). exists hs'. split; [now right|]. intros S0. now apply NS, FORTH.
      * destruct IH as (Q3 & F3 & FA & SC3). split; [eapply eqs_trans; eauto|]. split; [exact F3|]. split.
        { constructor.
          - split; [exact ND|]. intros x. rewrite IN. split; apply captured_eqs; [apply eqs_sym|]; exact Q1.
          - clear -FA Q. induction FA as [|a b la lb H _ IH]; constructor; [|exact IH]. destruct H as [ND IN]. split; [exact ND|]. intros x. rewrite IN.
            split; apply captured_eqs; [apply eqs_sym|]; exact Q. }
        intros hs' [<-|I]; [exact SC0|]. now apply BACK, SC3.
Qed.
