(** Proofs about getters. *)
From Verif Require Import Base Gtr_Model Gtr_Spec.
From Verif Require Import Lay_Model Lay_Spec Lay_Upload Lay_Read.
From Verif Require Import Gtr_Model Gtr_Spec.
Local Open Scope N_scope.

Definition fl (h h' : heap) : Prop := (forall i, h' i = h i) \/ (forall i, h' i = option_map settle (h i)).
Lemma settle_settle v : settle (settle v) = settle v.
Proof. reflexivity. Qed.
Lemma fl_refl h : fl h h. Proof. left. reflexivity. Qed.
Lemma fl_flush h : fl h (flush h). Proof. right. reflexivity. Qed.
Lemma fl_trans a b c : fl a b -> fl b c -> fl a c.
Proof.
  intros [A|A] [B|B]; [left|right|right|right]; intros i; rewrite B, A; try reflexivity. destruct (a i); reflexivity.
Qed.
Lemma fl_var h h' i v : fl h h' -> h i = Some v -> h' i = Some v \/ h' i = Some (settle v).
Proof. intros [F|F] E; rewrite F, E; [left|right]; reflexivity. Qed.
Lemma fl_iff h h' i : fl h h' -> h i = None -> h' i = None.
Proof. intros [F|F] E; rewrite F, E; reflexivity. Qed.
Lemma settle_entry v l : entry (settle v) l = entry v l.
Proof. unfold entry, settle; cbn. destruct (v_lit v); [reflexivity|]. destruct (v_new v); reflexivity. Qed.
Lemma clean_contents late i v : dirty v = false -> contents late i v = v_data v /\ contents late i (settle v) = v_data v.
Proof. unfold dirty, contents, settle. cbn. destruct (v_new v); [discriminate|auto]. Qed.

Lemma msize_fl h h' m : fl h h' -> msize h' m = msize h m.
Proof. intros F. destruct m; try reflexivity. cbn. destruct (h i) as [v|] eqn:E; [destruct (fl_var _ _ _ _ F E) as [->| ->]; reflexivity|rewrite (fl_iff _ _ _ F E); reflexivity]. Qed.

(** Lanes of an array without pending effects *)
Lemma lane_in w late pad h h' i v l : fl h h' -> h i = Some v -> var_ok v -> dirty v = false -> l < v_size v \/ v_size v = 1 ->
  lane w late pad h' i l = entry v l /\ exists x, entry v l = Some x /\ x < limit (v_ty v).
Proof.
  intros F E (SZ & LIT & _ & DAT & _) D L. destruct (clean_contents late i v D) as [C1 C2].
  assert (N0 : v_new v = None) by (unfold dirty in D; destruct (v_new v); [discriminate|reflexivity]).
  assert (LN : lane w late pad h' i l = match v_lit v with Some x => Some x | None =>
     if v_size v =? 1 then nth_error (v_data v) 0 else if l <? v_size v then nth_error (v_data v) (N.to_nat l) else if l <? (v_size v + w - 1) / w * w then Some (pad i l) else None end).
  { unfold lane. destruct (fl_var _ _ _ _ F E) as [->| ->]; cbn [bind settle v_lit v_size]; [rewrite C1|rewrite C2]; reflexivity. }
  rewrite LN. unfold entry. rewrite N0.
  destruct (v_lit v) as [x|] eqn:EL.
  - destruct (LIT x eq_refl) as [LX _]. destruct L as [L|L].
    + rewrite (proj2 (N.ltb_lt _ _) L), orb_true_r. split; [reflexivity|]. exists x. auto.
    + rewrite L. cbn. split; [reflexivity|]. exists x. auto.
  - destruct (DAT eq_refl) as [LEN FA]. rewrite Forall_forall in FA. destruct (N.eqb_spec (v_size v) 1) as [E1|N1].
    + split; [reflexivity|]. destruct (nth_error (v_data v) 0) as [x|] eqn:EN.
      * exists x. split; [reflexivity|]. apply FA. eapply nth_error_In; eauto.
      * apply nth_error_None in EN. lia.
    + destruct L as [L|L]; [|contradiction]. rewrite (proj2 (N.ltb_lt _ _) L). split; [reflexivity|].
      destruct (nth_error (v_data v) (N.to_nat l)) as [x|] eqn:EN.
      * exists x. split; [reflexivity|]. apply FA. eapply nth_error_In; eauto.
      * apply nth_error_None in EN. lia.
Qed.
(** ... and past its end *)
Lemma lane_out w late pad h h' i v l : fl h h' -> h i = Some v -> var_ok v -> dirty v = false ->
  v_size v <= l < (v_size v + w - 1) / w * w -> v_lit v = None -> v_size v <> 1 -> lane w late pad h' i l = Some (pad i l).
Proof.
  intros F E OK D L LN N1. unfold lane.
  assert (X : forall c, (if v_size v =? 1 then nth_error c 0 else if l <? v_size v then nth_error c (N.to_nat l) else if l <? (v_size v + w - 1) / w * w then Some (pad i l) else None) = Some (pad i l)).
  { intros c. apply N.eqb_neq in N1. rewrite N1. destruct (N.ltb_spec l (v_size v)); [lia|]. destruct (N.ltb_spec l ((v_size v + w - 1) / w * w)); [reflexivity|lia]. }
  destruct (fl_var _ _ _ _ F E) as [->| ->]; cbn [bind settle v_lit v_size]; rewrite LN; apply X.
Qed.
Lemma lane_some w late pad h h' i v l n : fl h h' -> h i = Some v -> var_ok v -> dirty v = false ->
  v_size v = n \/ v_size v = 1 -> l < n \/ l < (n + w - 1) / w * w -> exists x, lane w late pad h' i l = Some x.
Proof.
  intros F E OK D SZ L. destruct (v_lit v) as [x|] eqn:EL.
  - exists x. unfold lane. destruct (fl_var _ _ _ _ F E) as [->| ->]; cbn [bind settle v_lit]; rewrite EL; reflexivity.
  - destruct (N.lt_ge_cases l (v_size v)) as [LT|GE].
    + destruct (lane_in w late pad h h' i v l F E OK D (or_introl LT)) as [-> (x & H & _)]. eauto.
    + destruct (N.eq_dec (v_size v) 1) as [E1|N1].
      * destruct (lane_in w late pad h h' i v l F E OK D (or_intror E1)) as [-> (x & H & _)]. eauto.
      * destruct SZ as [SZ|SZ]; [|contradiction]. rewrite (lane_out w late pad h h' i v l F E OK D); eauto. split; [exact GE|]. subst n. destruct L; [lia|assumption].
Qed.

(** ** Masks *)
Lemma truth_bool b x : x < 2 -> truth b x = negb (x =? 0).
Proof. intros L. assert (C : x = 0 \/ x = 1) by lia. destruct C as [-> | ->]; destruct b; reflexivity. Qed.
Section Mask.
Variables (b : bk) (w : N) (late : N -> bool) (pad : N -> N -> N) (hh : heap) (n l : N).
Notation val := (fun m => mval b w late pad hh n m l).
Definition bools (h : heap) (m : mexpr) : Prop := match m with MVar i => forall v x, h i = Some v -> v_lit v = Some x -> x < 2 | _ => True end.
Lemma mlit_val h m x : fl h hh -> bools h m -> mlit h m = Some x -> val m = Some x.
Proof.
  intros F B E. destruct m; cbn in *; try discriminate; [|congruence].
  destruct (h i) as [v|] eqn:EH; [|discriminate]. destruct (v_lit v) as [y|] eqn:EL; [|discriminate]. cbn in E. injection E as <-.
  assert (LA : lane w late pad hh i l = Some y) by (unfold lane; destruct (fl_var _ _ _ _ F EH) as [->| ->]; cbn [bind settle v_lit]; rewrite EL; reflexivity).
  rewrite LA. cbn. f_equal. apply truth_bool. eauto.
Qed.
Lemma resize_val h m k h' m' : fl h hh -> bools h m -> resize h m k = Some (h', m') -> val m' = val m.
Proof.
  intros F B E. unfold resize in E. destruct (msize h m =? k); [injection E as <- <-; reflexivity|].
  destruct (mlit h m) as [x|] eqn:EL; [injection E as <- <-; cbn; symmetry; eapply mlit_val; eauto|].
  destruct (negb (msize h m =? 1)); [discriminate|]. injection E as <- <-. reflexivity.
Qed.
Lemma and_val cp h x y h' m p q : fl h hh -> bools h x -> bools h y -> and_ cp h x y = Some (h', m) ->
  val x = Some p -> val y = Some q -> val m = Some (p && q).
Proof.
  intros F BX BY E P Q. unfold and_ in E.
  destruct (negb _ || negb _); [discriminate|].
  assert (ND : forall k (h1 h2 : heap), Some (h1, MAnd x y k) = Some (h2, m) -> val m = Some (p && q)).
  { intros k h1 h2 EQ. injection EQ as _ <-. cbn [mval]. rewrite P. cbn [bind]. rewrite Q. reflexivity. }
  destruct cp; [|eapply ND; exact E].
  destruct (mlit h x) as [a|] eqn:EX; destruct (mlit h y) as [c|] eqn:EY.
  - pose proof (mlit_val _ _ _ F BX EX) as X. pose proof (mlit_val _ _ _ F BY EY) as Y. cbn beta in *.
    assert (EQ : Some (h, MLit (a && c) (N.max (msize h x) (msize h y))) = Some (h', m)) by (destruct a; exact E).
    injection EQ as _ <-. cbn. congruence.
  - pose proof (mlit_val _ _ _ F BX EX) as X. destruct a.
    + rewrite (resize_val _ _ _ _ _ F BY E). cbn beta in *. replace p with true by congruence. exact Q.
    + injection E as _ <-. cbn beta in *. replace p with false by congruence. reflexivity.
  - pose proof (mlit_val _ _ _ F BY EY) as Y. destruct c.
    + rewrite (resize_val _ _ _ _ _ F BX E). cbn beta in *. replace q with true by congruence. rewrite andb_true_r. exact P.
    + injection E as _ <-. cbn beta in *. replace q with false by congruence. rewrite andb_false_r. reflexivity.
  - destruct (same x y) eqn:SA; [|eapply ND; exact E].
    rewrite (resize_val _ _ _ _ _ F BX E). destruct x, y; try discriminate. apply N.eqb_eq in SA. subst. cbn beta in *.
    replace q with p by congruence. rewrite andb_diag. exact P.
Qed.
End Mask.
Lemma resize_fl h m k h' m' : resize h m k = Some (h', m') -> fl h h'.
Proof.
  unfold resize. destruct (msize h m =? k); [intros E; injection E as <- _; apply fl_refl|]. destruct (mlit h m); [intros E; injection E as <- _; apply fl_refl|].
  destruct (negb _); [discriminate|]. intros E. injection E as <- _. destruct (mdirty h m); [apply fl_flush|apply fl_refl].
Qed.
Lemma and_fl cp h x y h' m : and_ cp h x y = Some (h', m) -> fl h h'.
Proof.
  unfold and_. destruct (negb _ || negb _); [discriminate|].
  assert (ND : forall k h2, Some ((if mdirty h x || mdirty h y then flush h else h), MAnd x y k) = Some (h2, m) -> fl h h2).
  { intros k h2 E. injection E as <- _. destruct (_ || _); [apply fl_flush|apply fl_refl]. }
  destruct cp; [|apply ND]. destruct (mlit h x) as [[]|], (mlit h y) as [[]|]; try (intros E; injection E as <- _; apply fl_refl); try apply resize_fl.
  destruct (same x y); [apply resize_fl|apply ND].
Qed.
Lemma and_size cp h x y h' m : and_ cp h x y = Some (h', m) -> msize h' m = N.max (msize h x) (msize h y).
Proof.
  intros E. pose proof (and_fl _ _ _ _ _ _ E) as F. rewrite (msize_fl _ _ _ F). unfold and_ in E.
  destruct (negb _ || negb _); [discriminate|]. set (k := N.max _ _) in *.
  assert (RS : forall z h2, resize h z k = Some (h2, m) -> msize h m = k).
  { intros z h2 R. unfold resize in R. destruct (N.eqb_spec (msize h z) k); [injection R as _ <-; assumption|].
    destruct (mlit h z); [injection R as _ <-; reflexivity|]. destruct (negb _); [discriminate|]. injection R as _ <-. reflexivity. }
  assert (ND : forall h1 h2 : heap, Some (h1, MAnd x y k) = Some (h2, m) -> msize h m = k) by (intros h1 h2 EQ; injection EQ as _ <-; reflexivity).
  destruct cp; [|eapply ND; exact E].
  destruct (mlit h x) as [[]|], (mlit h y) as [[]|]; try (injection E as _ <-; reflexivity); try (eapply RS; exact E).
  destruct (same x y); [eapply RS|eapply ND]; exact E.
Qed.

(** Values of one mask variable *)
Lemma mask_in b w late pad h hh n i v l : fl h hh -> h i = Some v -> var_ok v -> v_ty v = TBool -> dirty v = false ->
  v_size v = n \/ v_size v = 1 -> l < n ->
  mval b w late pad hh n (MVar i) l = Some (match entry v l with Some x => negb (x =? 0) | None => false end).
Proof.
  intros F E OK T D SZ L. cbn [mval].
  destruct (lane_in w late pad h hh i v l F E OK D) as (-> & x & -> & LX); [destruct SZ as [-> | ->]; auto|].
  cbn [option_map]. f_equal. apply truth_bool. rewrite T in LX. exact LX.
Qed.
Lemma bools_ok h i v : heap_ok h -> h i = Some v -> v_ty v = TBool -> bools h (MVar i).
Proof. intros OK E T v' x E' EL. rewrite E in E'. injection E' as <-. destruct (OK i v E) as (_ & LIT & _). destruct (LIT x EL) as [LX _]. rewrite T in LX. exact LX. Qed.
Lemma bools_fl h h' m : fl h h' -> bools h m -> bools h' m.
Proof. intros F B. destruct m; cbn in *; auto. intros v x E EL. destruct (h i) as [u|] eqn:EH; [|rewrite (fl_iff _ _ _ F EH) in E; discriminate]. destruct (fl_var _ _ _ _ F EH) as [X|X]; rewrite X in E; injection E as <-; eauto. Qed.

Section Apply.
Variables (cp : bool) (b : bk) (stack : option N) (h : heap) (mask size : N) (h' : heap) (m : mexpr) (vm : var).
Hypothesis (A : mask_apply cp b stack h mask size = Some (h', m)) (OK : heap_ok h) (EM : h mask = Some vm) (TM : v_ty vm = TBool).
Hypothesis (ST : forall t, stack = Some t -> exists v, h t = Some v /\ v_ty v = TBool /\ dirty v = false).
Lemma apply_fl : fl h h'.
Proof.
  unfold mask_apply in A. revert A. set (top := match stack with Some t => _ | None => _ end). intros A'.
  destruct (is_llvm b).
  - destruct top as [t|].
    + destruct (_ && _).
      * destruct (and_ cp h (MVar t) (MDefault size)) as [[h1 m1]|] eqn:E1; cbn [bind fst snd] in A'; [|discriminate].
        eapply fl_trans; [eapply and_fl; exact E1|eapply and_fl; exact A'].
      * cbn [bind fst snd] in A'. eapply and_fl; exact A'.
    + cbn [bind fst snd] in A'. eapply and_fl; exact A'.
  - cbn [bind fst snd] in A'. destruct top; cbn [option_map] in A'; [eapply and_fl|eapply resize_fl]; exact A'.
Qed.
Lemma apply_val w late pad hh l : fl h' hh -> dirty vm = false -> v_size vm <= size -> 0 < size ->
  let n := N.max size (msize h' m) in
  v_size vm = n \/ v_size vm = 1 -> l < lanes b w n -> (b = LLVM -> ends h pad stack size n) ->
  (l < n -> mval b w late pad hh n m l = Some (on_stack h stack size l && match entry vm l with Some x => negb (x =? 0) | None => false end)) /\
  (n <= l -> mval b w late pad hh n m l = Some false).
Proof.
  intros FH' D LS PS n SZ LL EN. pose proof apply_fl as F1. assert (F : fl h hh) by (eapply fl_trans; eauto).
  assert (BM := bools_ok h mask vm OK EM TM).
  assert (LL' : l < n \/ b = LLVM /\ n <= l < (n + w - 1) / w * w).
  { unfold lanes in LL. destruct (N.lt_ge_cases l n); [left; assumption|right]. destruct b; cbn [is_llvm] in LL; [auto|lia|lia]. }
  assert (MV : exists q, mval b w late pad hh n (MVar mask) l = Some q /\ (l < n -> q = match entry vm l with Some x => negb (x =? 0) | None => false end)).
  { destruct (N.lt_ge_cases l n) as [L|L].
    - rewrite (mask_in b w late pad h hh n mask vm l F EM (OK _ _ EM) TM D SZ L). eauto.
    - destruct LL' as [?|[_ LL']]; [lia|]. destruct (lane_some w late pad h hh mask vm l n F EM (OK _ _ EM) D SZ) as [x X]; [right; lia|].
      cbn [mval]. rewrite X. cbn. exists (truth b x). split; [reflexivity|lia]. }
  destruct MV as (q & MV & QV).
  assert (MM : msize h (MVar mask) = v_size vm) by (cbn; rewrite EM; reflexivity).
  unfold mask_apply in A. revert A. set (top := match stack with Some t => _ | None => _ end). intros A'.
  assert (TOP : top = None /\ on_stack h stack size l = true \/ exists t v, top = Some t /\ stack = Some t /\ h t = Some v /\ v_ty v = TBool /\ dirty v = false /\
            (size = 1 \/ v_size v = 1 \/ v_size v = size) /\ on_stack h stack size l = match entry v l with Some x => negb (x =? 0) | None => false end).
  { subst top. unfold on_stack. destruct stack as [t|]; [|left; auto]. destruct (ST t eq_refl) as (v & EV & T & DV). cbn [msize]. rewrite EV.
    destruct ((size =? 1) || (v_size v =? 1) || (v_size v =? size)) eqn:C; [|left; auto]. right. exists t, v. repeat split; auto.
    rewrite !orb_true_iff, !N.eqb_eq in C. tauto. }
  clearbody top.
  assert (NDEF : l < n -> (l <? n) = true) by (intros; apply N.ltb_lt; assumption).
  destruct TOP as [(-> & OS)|(t & v & -> & ES & EV & TV & DV & SV & OS)].
  - rewrite OS, andb_true_l. destruct (is_llvm b) eqn:EB.
    + cbn [bind fst snd] in A'.
      assert (V : mval b w late pad hh n m l = Some ((l <? n) && q)).
      { eapply (and_val b w late pad hh n l cp h (MDefault size) (MVar mask)); eauto; exact Logic.I. }
      rewrite V. split; intros L; [rewrite (NDEF L), <- (QV L); reflexivity|]. destruct (N.ltb_spec l n); [lia|reflexivity].
    + cbn [bind fst snd option_map] in A'. split; intros L.
      * rewrite (resize_val b w late pad hh n l _ _ _ _ _ F BM A'), MV, <- (QV L). reflexivity.
      * destruct LL' as [?|[-> _]]; [lia|discriminate].
  - pose proof (bools_ok h t v OK EV TV) as BT.
    assert (MT : msize h (MVar t) = v_size v) by (cbn; rewrite EV; reflexivity).
    assert (EQ : fl h hh -> forall e h1, and_ cp h1 e (MVar mask) = Some (h', m) -> msize h1 e = N.max (v_size v) (msize h1 e) -> (size <> 1 -> msize h1 e <= size) -> (size = 1 -> msize h1 e = v_size v) -> fl h h1 -> v_size v = n \/ v_size v = 1).
    { intros _ e h1 EA GE LE SE F2. pose proof (and_size _ _ _ _ _ _ EA) as S2. rewrite (msize_fl _ _ (MVar mask) F2), MM in S2.
      destruct (N.eq_dec size 1) as [S1|S1].
      - left. unfold n. rewrite S2, SE by assumption. destruct (OK _ _ EV) as ((P & _) & _). destruct (OK _ _ EM) as ((Q & _) & _). lia.
      - specialize (LE S1). assert (n = size) by (unfold n; rewrite S2; lia). destruct SV as [?|[?|?]]; [contradiction|right; assumption|left; lia]. }
    assert (TVAL : v_size v = n \/ v_size v = 1 -> exists p, mval b w late pad hh n (MVar t) l = Some p /\ (l < n -> p = on_stack h stack size l) /\
                     (n <= l -> p = false \/ (size = 1 /\ v_lit v = None /\ v_node v = false))).
    { intros SN. destruct (N.lt_ge_cases l n) as [L|L].
      - exists (match entry v l with Some x => negb (x =? 0) | None => false end). split; [eapply mask_in; eauto|]. split; [intros _; rewrite OS; reflexivity|lia].
      - destruct LL' as [?|[EB LL']]; [lia|]. destruct (EN EB t v ES EV SV) as [C|[(C1 & C2 & C3 & C4)|C]].
        + destruct (lane_some w late pad h hh t v l n F EV (OK _ _ EV) DV SN) as [x X]; [right; lia|].
          cbn [mval]. rewrite X. cbn. exists (truth b x). split; [reflexivity|]. split; [lia|auto].
        + cbn [mval]. rewrite (lane_out w late pad h hh t v l F EV (OK _ _ EV) DV); [|rewrite C1; exact LL'|exact C3|rewrite C1; exact C2].
          exists (truth b (pad t l)). split; [reflexivity|]. split; [lia|]. intros _. left. rewrite EB. cbn. apply C4. exact L.
        + exists false. split; [|split; [lia|auto]]. pose proof (mlit_val b w late pad hh n l h (MVar t) false F BT) as X. apply X. cbn. rewrite EV, C. reflexivity. }
    destruct (is_llvm b) eqn:EB.
    + rewrite EV in A'. destruct (evaluated v && (size =? 1)) eqn:EE.
      * apply andb_true_iff in EE. destruct EE as [E1 E2]. apply N.eqb_eq in E2.
        destruct (and_ cp h (MVar t) (MDefault size)) as [[h1 m1]|] eqn:A1; cbn [bind fst snd] in A'; [|discriminate].
        pose proof (and_size _ _ _ _ _ _ A1) as S1. pose proof (and_fl _ _ _ _ _ _ A1) as F2. rewrite MT in S1. cbn [msize] in S1.
        assert (PV : 0 < v_size v) by (destruct (OK _ _ EV) as ((P & _) & _); exact P).
        assert (SN : v_size v = n \/ v_size v = 1) by (apply (EQ F m1 h1 A'); [rewrite S1, E2; lia|intros; contradiction|intros; rewrite S1, E2; lia|exact F2]).
        destruct (TVAL SN) as (p & VP & P1 & P2).
        assert (V1 : mval b w late pad hh n m1 l = Some (p && (l <? n))).
        { eapply (and_val b w late pad hh n l cp h (MVar t) (MDefault size)); eauto; exact Logic.I. }
        assert (V : mval b w late pad hh n m l = Some (p && (l <? n) && q)).
        { eapply (and_val b w late pad hh n l cp h1 m1 (MVar mask)); [|  | |exact A'|exact V1|exact MV].
          - eapply fl_trans; [|exact FH']. eapply and_fl; exact A'.
          - clear - A1 OK EV TV F2 BT. unfold and_ in A1. destruct (negb _ || negb _); [discriminate|].
            assert (ND : forall k (h2 : heap), Some (h2, MAnd (MVar t) (MDefault size) k) = Some (h1, m1) -> bools h1 m1) by (intros k h2 E; injection E as _ <-; exact Logic.I).
            assert (RS : forall k, resize h (MVar t) k = Some (h1, m1) -> bools h1 m1).
            { intros k R. unfold resize in R. destruct (_ =? k); [injection R as <- <-; exact BT|]. destruct (mlit _ _); [injection R as <- <-; exact Logic.I|]. destruct (negb _); [discriminate|]. injection R as <- <-. exact Logic.I. }
            assert (RD : forall k, resize h (MDefault size) k = Some (h1, m1) -> bools h1 m1).
            { intros k R. unfold resize in R. destruct (_ =? k); [injection R as <- <-; exact Logic.I|]. cbn [mlit] in R. destruct (negb _); [discriminate|]. injection R as <- <-. exact Logic.I. }
            destruct cp; [|eapply ND; exact A1]. cbn [mlit same] in A1.
            match type of A1 with context [match ?e with Some _ => _ | None => _ end] => destruct e as [[]|] end;
              [eapply RD; exact A1|injection A1 as _ <-; exact Logic.I|eapply ND; exact A1].
          - eapply bools_fl; eauto. }
        rewrite V. split; intros L; [rewrite (NDEF L), andb_true_r, <- (QV L), <- (P1 L); reflexivity|]. destruct (N.ltb_spec l n); [lia|]. rewrite andb_false_r. reflexivity.
      * cbn [bind fst snd] in A'.
        assert (SN : v_size v = n \/ v_size v = 1).
        { apply (EQ F (MVar t) h A'); [rewrite MT; lia| |intros; exact MT|apply fl_refl]. rewrite MT. intros. destruct SV as [?|[?|?]]; [contradiction|lia|lia]. }
        destruct (TVAL SN) as (p & VP & P1 & P2).
        assert (V : mval b w late pad hh n m l = Some (p && q)) by (eapply (and_val b w late pad hh n l cp h (MVar t) (MVar mask)); eauto).
        rewrite V. split; intros L; [rewrite <- (QV L), <- (P1 L); reflexivity|]. destruct (P2 L) as [-> |(C1 & C2 & C3)]; [reflexivity|].
        exfalso. unfold evaluated in EE. rewrite C2, C3, C1 in EE. discriminate.
    + cbn [bind fst snd option_map] in A'.
      assert (SN : v_size v = n \/ v_size v = 1).
      { apply (EQ F (MVar t) h A'); [rewrite MT; lia| |intros; exact MT|apply fl_refl]. rewrite MT. intros. destruct SV as [?|[?|?]]; [contradiction|lia|lia]. }
      destruct (TVAL SN) as (p & VP & P1 & P2).
      assert (V : mval b w late pad hh n m l = Some (p && q)) by (eapply (and_val b w late pad hh n l cp h (MVar t) (MVar mask)); eauto).
      rewrite V. split; intros L; [rewrite <- (QV L), <- (P1 L); reflexivity|]. destruct LL' as [?|[-> _]]; [lia|discriminate].
Qed.
End Apply.
