(** Size of the initial state; which loops are accepted. *)
From Verif Require Import Base Lup_Model Lup_Spec Lup_Proofs Lup_More.
Local Open Scope N_scope.

Section Acc.
Context {K : Type}.
Variable expr_eq : forall a b : expr K, {a = b} + {a <> b}.
Notation var := (var K).
#[local] Ltac Zify.zify_post_hook ::= idtac.

Lemma same_size (a b : var) : same expr_eq a b = true -> v_size a = v_size b.
Proof. unfold same. intros H. apply andb_true_iff in H. now apply N.eqb_eq. Qed.
Lemma same_refl (a : var) : same expr_eq a a = true.
Proof. unfold same. destruct (expr_eq (v_expr a) (v_expr a)) as [|C]; [|now contradiction C]. cbn. apply N.eqb_refl. Qed.
Lemma same_neq (a b : var) : v_expr a <> v_expr b -> same expr_eq a b = false.
Proof. unfold same. intros H. now destruct (expr_eq (v_expr a) (v_expr b)). Qed.

(** ** Initial values *)
Lemma loop_size_le : forall (outer inner outs : list var) s, s <= loop_size expr_eq s outer inner outs.
Proof. induction outer as [|v outer IH]; intros [|p inner] [|q outs] s; cbn [loop_size]; try lia. eapply N.le_trans; [|apply IH]. destruct (same _ _ _); lia. Qed.
Lemma loop_size_covers : forall (outer inner outs : list var) s i v p q,
  nth_error outer i = Some v -> nth_error inner i = Some p -> nth_error outs i = Some q ->
  same expr_eq q p = true \/ v_size v <= loop_size expr_eq s outer inner outs.
Proof.
  induction outer as [|v0 outer IH]; intros [|p0 inner] [|q0 outs] s [|i] v p q; cbn [nth_error loop_size]; try discriminate.
  - intros [= ->] [= ->] [= ->]. destruct (same expr_eq q p); [now left|right]. eapply N.le_trans; [|apply loop_size_le]. lia.
  - apply IH.
Qed.
Lemma finish_covers llvm c : forall el size (outer inner outs : list var) sz new, finish expr_eq llvm c el size outer inner outs = Some (sz, new) ->
  size <= sz /\ forall i v, nth_error new i = Some (Some v) -> nth_error outs i = Some v /\ nth_error el i = Some false /\ v_size v <= sz.
Proof.
  induction el as [|b el IH]; intros size [|v outer] [|p inner] [|q outs] sz new H; cbn [finish] in H; try discriminate; [injection H as <- <-; split; [lia|intros [|i] v; discriminate]|].
  destruct b; cbn [negb] in H.
  - destruct (_ && _) in H; [discriminate|]. destruct (finish expr_eq llvm c el size outer inner outs) as [[sz' new']|] eqn:E; [|discriminate]. cbn [bind fst snd] in H. injection H as <- <-.
    destruct (IH _ _ _ _ _ _ E) as [A B]. split; [assumption|]. intros [|i] x; cbn [nth_error]; [discriminate|apply B].
  - destruct (_ && _) in H; [discriminate|]. destruct (llvm && _) in H; [discriminate|].
    destruct (finish expr_eq llvm c el (N.max (v_size q) size) outer inner outs) as [[sz' new']|] eqn:E; [|discriminate]. cbn [bind fst snd] in H. injection H as <- <-.
    destruct (IH _ _ _ _ _ _ E) as [A B]. split; [lia|]. intros [|i] x; cbn [nth_error]; [intros [= <-]; repeat split; lia|apply B].
Qed.
Lemma phis_nth : forall (outer : list var) j i p v, nth_error (phis j outer) i = Some p -> nth_error outer i = Some v -> v_size p = v_size v.
Proof. induction outer as [|v0 outer IH]; intros j [|i] p v; cbn [phis nth_error]; try discriminate; [intros [= <-] [= ->]; reflexivity|apply IH]. Qed.
Lemma phis_sizes : forall (outer : list var) j, map v_size (phis j outer) = map v_size outer.
Proof. induction outer as [|v outer IH]; intros j; cbn [phis map]; [reflexivity|]. now rewrite IH. Qed.
Lemma replace_false : forall el (outer inner : list var) i p, nth_error (replace el outer inner) i = Some p -> nth_error el i = Some false -> nth_error inner i = Some p.
Proof. induction el as [|b el IH]; intros [|v outer] [|q inner] [|i] p; cbn [replace nth_error]; try discriminate; [intros [= <-] [= ->]; reflexivity|apply IH]. Qed.
Lemma replace_sizes : forall el (outer inner : list var), length el = length outer -> map v_size inner = map v_size outer -> map v_size (replace el outer inner) = map v_size outer.
Proof.
  induction el as [|b el IH]; intros [|v outer] [|q inner] L E; cbn [replace map length] in *; try discriminate; [reflexivity|].
  injection E as E1 E2. rewrite IH; [|lia|assumption]. f_equal. now destruct b.
Qed.

Lemma initial_sizes llvm optimize (body : recorder K) outer l : (forall vs, length vs = length outer -> length (snd (body vs)) = length outer) ->
  record_loop expr_eq llvm optimize body outer = Some l ->
  forall i v1 v, nth_error outer i = Some v1 -> nth_error (l_new l) i = Some (Some v) -> v_size v1 <= l_size l.
Proof.
  intros HL H i v1 v H1 H2. destruct (record_inv expr_eq (fun _ _ _ => 0) (fun _ _ => 0) (fun _ l => (false, l)) 0 llvm optimize body outer l HL H) as (size & el & Eel & Ein & Ec & Efin).
  destruct (finish_covers _ _ _ _ _ _ _ _ _ Efin) as [S1 S2]. destruct (S2 i v H2) as (Eo & Ee & Ev).
  pose proof (phis_length (K := K) 0 outer) as Lp.
  assert (Le : length el = length outer) by (rewrite Eel; apply (eliminations_length expr_eq (fun _ _ _ => 0) (fun _ _ => 0)); [exact Lp|apply HL; exact Lp]).
  assert (Li : length (l_inner l) = length outer) by (rewrite Ein; apply replace_length; [exact Le|exact Lp]).
  destruct (nth_error (l_inner l) i) as [p|] eqn:Ep; [|apply nth_error_None in Ep; rewrite Li in Ep; apply nth_error_None in Ep; congruence].
  pose proof (loop_size_covers outer (l_inner l) (snd (body (l_inner l))) (N.max 1 (v_size (l_cond l))) i v1 p v H1 Ep Eo) as [C|C]; [|lia].
  apply same_size in C. rewrite Ein in Ep. apply replace_false in Ep; [|assumption]. pose proof (phis_nth _ _ _ _ _ Ep H1). lia.
Qed.

(** ** Accepted loops *)
Section Reg.
Variables (n : N) (llvm optimize : bool).
Hypothesis N1 : 1 <= n.
Definition two (x : N) : Prop := x = 1 \/ x = n.
(** Per state variable: [b] kept, [v] initial value, [p] state, [q] new value *)
Definition pos (b : bool) (v p q : var) : Prop :=
  v_size p = v_size v /\ (b = true /\ q = p \/ b = false /\ same expr_eq q p = false /\ lit_of q = None /\ v_size q = n /\ two (v_size v)).
Inductive all : list bool -> list var -> list var -> list var -> Prop :=
| all_nil : all [] [] [] []
| all_cons b v p q bs vs ps qs : pos b v p q -> all bs vs ps qs -> all (b :: bs) (v :: vs) (p :: ps) (q :: qs).

Lemma all_size bs vs ps qs : all bs vs ps qs -> forall s, two s ->
  two (loop_size expr_eq s vs ps qs) /\ (In false bs -> loop_size expr_eq s vs ps qs = n).
Proof.
  unfold two. induction 1 as [|b v p q bs vs ps qs (Sp & P) A IH]; intros s Hs; cbn [loop_size]; [split; [assumption|intros []]|].
  destruct P as [[-> ->]|(-> & NS & _ & Sq & Sv)].
  - rewrite same_refl. destruct (IH s Hs) as [A1 A2]. split; [assumption|]. intros [F|F]; [discriminate|auto].
  - rewrite NS. unfold two in Sv. assert (E : N.max s (N.max (v_size v) (v_size q)) = n) by lia. rewrite E.
    destruct (IH n) as [A1 A2]; [now right|]. split; [assumption|]. intros _. pose proof (loop_size_le vs ps qs n). destruct A1 as [A1|A1]; [|assumption]. lia.
Qed.
(** Flags of the first recording *)
Inductive flags (s : N) : list bool -> list bool -> list var -> Prop :=
| flags_nil : flags s [] [] []
| flags_cons b e v bs es vs : (e = true -> b = true) -> (b = true -> e = false -> v_size v = s) -> flags s bs es vs -> flags s (b :: bs) (e :: es) (v :: vs).
Lemma all_flags s bs vs ps qs : all bs vs ps qs -> flags s bs (eliminations expr_eq optimize s vs ps qs) vs.
Proof.
  induction 1 as [|b v p q bs vs ps qs (Sp & P) A IH]; cbn [eliminations]; [constructor|]. constructor; [| |assumption]; unfold eliminate.
  - destruct P as [[-> ->]|(-> & NS & NL & _)]; [reflexivity|]. rewrite NS. unfold same_lit. rewrite NL.
    destruct (lit_of v); rewrite andb_false_r; discriminate.
  - intros ->. destruct P as [[_ ->]|[? _]]; [|discriminate]. rewrite same_refl. intros H. apply orb_false_iff in H. destruct H as [_ H].
    apply negb_false_iff, N.eqb_eq in H. congruence.
Qed.
Lemma all_finish c s0 bs vs ps qs : two (v_size c) -> two s0 -> all bs vs ps qs -> forall es, flags s0 bs es vs -> forall s, two s ->
  exists sz new, finish expr_eq llvm c es s vs ps qs = Some (sz, new) /\ two sz /\
    forall i v q, nth_error vs i = Some v -> nth_error new i = Some (Some q) -> two (v_size v) /\ two (v_size q).
Proof.
  intros Tc T0. induction 1 as [|b v p q bs vs ps qs (Sp & P) A IH]; intros es F s Hs; inversion F as [|b' e v' bs' es' vs' F1 F2 F3]; subst; cbn [finish].
  - exists s, []. split; [reflexivity|]. split; [assumption|]. intros [|i] v q; discriminate.
  - destruct e; cbn [negb].
    + specialize (F1 eq_refl). subst. destruct P as [[_ ->]|[? _]]; [|discriminate]. rewrite same_refl. cbn [negb andb].
      destruct (IH _ F3 s Hs) as (sz & new & E & T & G). rewrite E. cbn [bind fst snd]. exists sz, (None :: new). split; [reflexivity|]. split; [assumption|].
      intros [|i] x y; cbn [nth_error]; [discriminate|apply G].
    + assert (Tv : two (v_size v)). { destruct P as [[Pb _]|(_ & _ & _ & _ & Pv)]; [|assumption]. rewrite (F2 Pb eq_refl). assumption. }
      assert (Tq : two (v_size q)). { destruct P as [[_ ->]|(_ & _ & _ & -> & _)]; [now rewrite Sp|now right]. }
      assert (E1 : negb (v_size q =? s) && negb (s =? 1) && negb (v_size q =? 1) = false).
      { destruct (N.eqb_spec (v_size q) s); [reflexivity|]. destruct (N.eqb_spec s 1); [reflexivity|]. destruct (N.eqb_spec (v_size q) 1); [reflexivity|]. unfold two in *. lia. }
      rewrite E1.
      assert (E2 : select_ok c q p = true).
      { unfold select_ok. set (m := N.max (v_size c) (N.max (v_size q) (v_size p))). cbn [forallb].
        assert (X : forall x : var, two (v_size x) -> v_size x <= m -> (v_size x =? m) || (v_size x =? 1) = true).
        { intros x Tx Lx. apply orb_true_iff. rewrite !N.eqb_eq. unfold two in *. subst m. rewrite Sp in *. lia. }
        rewrite !X; [reflexivity| | | | | |]; try assumption; subst m; try lia. now rewrite Sp. }
      rewrite E2, andb_false_r.
      destruct (IH _ F3 (N.max (v_size q) s)) as (sz & new & E & T & G). { unfold two in *. lia. }
      rewrite E. cbn [bind fst snd]. exists sz, (Some q :: new). split; [reflexivity|]. split; [assumption|].
      intros [|i] x y; cbn [nth_error]; [intros [= <-] [= <-]; now split|apply G].
Qed.
End Reg.

Lemma all_of n : forall keep (outer ps qs : list var), length keep = length outer -> length qs = length outer -> map v_size ps = map v_size outer ->
  (forall i v, nth_error keep i = Some false -> nth_error outer i = Some v -> v_size v = 1 \/ v_size v = n) ->
  (forall i v q, nth_error ps i = Some v -> nth_error qs i = Some q ->
      match nth_error keep i with
      | Some true => q = v
      | Some false => v_expr q <> v_expr v /\ lit_of q = None /\ v_size q = n
      | None => False
      end) -> all n keep outer ps qs.
Proof.
  induction keep as [|b keep IH]; intros [|v outer] [|p ps] [|q qs] L1 L2 E H1 H2; cbn [length map] in *; try discriminate; [constructor|].
  injection E as E1 E2. constructor.
  - split; [assumption|]. pose proof (H2 0%nat p q eq_refl eq_refl) as X. cbn [nth_error] in X. destruct b; [left; now split|right].
    destruct X as (X1 & X2 & X3). split; [reflexivity|]. split; [now apply same_neq|]. split; [assumption|]. split; [assumption|]. exact (H1 0%nat v eq_refl eq_refl).
  - apply IH; try lia; [assumption|intros i; exact (H1 (S i))|intros i; exact (H2 (S i))].
Qed.

Lemma regular_accepted n keep llvm optimize (body : recorder K) outer : regular n keep outer body ->
  exists l, record_loop expr_eq llvm optimize body outer = Some l /\ assembles outer l = true /\ (In false keep -> l_size l = n).
Proof.
  intros (N1 & LK & HO & HB).
  assert (HL : forall vs, map v_size vs = map v_size outer -> length (snd (body vs)) = length outer) by (intros vs E; apply (HB vs E)).
  assert (G : forall ps, map v_size ps = map v_size outer -> two n (v_size (fst (body ps))) /\ all n keep outer ps (snd (body ps)) /\
    (forall s, s = loop_size expr_eq (N.max 1 (v_size (fst (body ps)))) outer ps (snd (body ps)) -> two n s /\ (In false keep -> s = n) /\ v_size (fst (body ps)) <= s)).
  { intros ps E. destruct (HB ps E) as (B1 & B2 & B3). split; [exact B1|]. assert (A : all n keep outer ps (snd (body ps))) by (apply all_of; auto).
    split; [exact A|]. intros s ->. assert (T : two n (N.max 1 (v_size (fst (body ps))))) by (unfold two in *; lia).
    destruct (all_size n N1 _ _ _ _ A _ T) as [A1 A2]. split; [assumption|]. split; [assumption|].
    pose proof (loop_size_le outer ps (snd (body ps)) (N.max 1 (v_size (fst (body ps))))). lia. }
  assert (Fin : forall ps es s0, map v_size ps = map v_size outer -> two n s0 -> flags s0 keep es outer ->
    exists sz new, finish expr_eq llvm (fst (body ps)) es (loop_size expr_eq (N.max 1 (v_size (fst (body ps)))) outer ps (snd (body ps))) outer ps (snd (body ps)) = Some (sz, new) /\
      (In false keep -> sz = n) /\ (two n sz) /\ v_size (fst (body ps)) <= sz /\ (forall i v q, nth_error outer i = Some v -> nth_error new i = Some (Some q) -> two n (v_size v) /\ two n (v_size q)) /\
      (forall i v, nth_error new i = Some (Some v) -> v_size v <= sz)).
  { intros ps es s0 E T0 F. destruct (G ps E) as (Tc & A & Ts). specialize (Ts _ eq_refl). destruct Ts as (Ts & Tn & Tl).
    destruct (all_finish n llvm N1 (fst (body ps)) s0 _ _ _ _ Tc T0 A es F _ Ts) as (sz & new & Ef & T & Gn). exists sz, new. split; [exact Ef|].
    destruct (finish_covers _ _ _ _ _ _ _ _ _ Ef) as [S1 S2]. split; [intros HI; specialize (Tn HI); unfold two in T; lia|]. split; [assumption|].
    split; [lia|]. split; [exact Gn|]. intros i v Hi. apply (S2 i v Hi). }
  pose proof (phis_sizes outer 0) as Ep. destruct (G (phis 0 outer) Ep) as (Tc & A & Ts). specialize (Ts _ eq_refl). destruct Ts as (Ts & Tn & Tl).
  pose proof (all_flags n optimize (loop_size expr_eq (N.max 1 (v_size (fst (body (phis 0 outer))))) outer (phis 0 outer) (snd (body (phis 0 outer)))) _ _ _ _ A) as Fl.
  assert (ASM : forall l : loop K, two n (l_size l) -> two n (v_size (l_cond l)) -> v_size (l_cond l) <= l_size l ->
     (forall i v q, nth_error outer i = Some v -> nth_error (l_new l) i = Some (Some q) -> two n (v_size v) /\ two n (v_size q)) ->
     (forall i v, nth_error (l_new l) i = Some (Some v) -> v_size v <= l_size l) ->
     (forall i v1 v, nth_error outer i = Some v1 -> nth_error (l_new l) i = Some (Some v) -> v_size v1 <= l_size l) -> assembles outer l = true).
  { intros l T1 T2 T3 T4 T5 T6. unfold assembles.
    assert (FT : forall v : var, two n (v_size v) -> v_size v <= l_size l -> fits (l_size l) v = true).
    { intros v Tv Lv. unfold fits. apply orb_true_iff. rewrite !N.eqb_eq. unfold two in *. lia. }
    rewrite FT by assumption. cbn [andb]. apply forallb_forall. intros [v o] HI. cbn [fst snd]. destruct o as [q|]; [|reflexivity].
    apply In_nth_error in HI. destruct HI as [i Hi].
    assert (NC : forall (l : list var) (m : list (option var)) i a b, nth_error (combine l m) i = Some (a, b) -> nth_error l i = Some a /\ nth_error m i = Some b).
    { clear. induction l as [|a l IH]; intros [|b m] [|i] x y; cbn; try discriminate; [intros [= -> ->]; auto|apply IH]. }
    apply NC in Hi. destruct Hi as [Hv Hq]. destruct (T4 i v q Hv Hq) as [Tv Tq].
    rewrite !FT; [reflexivity| | | |]; eauto. }
  assert (INI : forall (sz : N) (new : list (option var)) ps es, map v_size ps = map v_size outer ->
     finish expr_eq llvm (fst (body ps)) es (loop_size expr_eq (N.max 1 (v_size (fst (body ps)))) outer ps (snd (body ps))) outer ps (snd (body ps)) = Some (sz, new) ->
     forall i v1 v, nth_error outer i = Some v1 -> nth_error new i = Some (Some v) -> v_size v1 <= sz).
  { intros sz new ps es E Ef i v1 v H1 H2. destruct (finish_covers _ _ _ _ _ _ _ _ _ Ef) as [S1 S2]. destruct (S2 i v H2) as (Eo & Ee & Ev).
    assert (Lp : length ps = length outer) by (rewrite <- (map_length v_size ps), E; apply map_length).
    destruct (nth_error ps i) as [p|] eqn:Epi; [|apply nth_error_None in Epi; rewrite Lp in Epi; apply nth_error_None in Epi; congruence].
    destruct (loop_size_covers outer ps (snd (body ps)) (N.max 1 (v_size (fst (body ps)))) i v1 p v H1 Epi Eo) as [C|C]; [|lia].
    apply same_size in C. assert (v_size p = v_size v1). { apply (f_equal (fun l => nth_error l i)) in E. rewrite !nth_error_map, Epi, H1 in E. cbn in E. congruence. } lia. }
  unfold record_loop in *. destruct (body (phis 0 outer)) as [cond outs] eqn:Eb. cbn [fst snd] in *.
  set (s1 := loop_size expr_eq (N.max 1 (v_size cond)) outer (phis 0 outer) outs) in *.
  set (el := eliminations expr_eq optimize s1 outer (phis 0 outer) outs) in *.
  destruct (existsb (fun b => b) el) eqn:Ee; cbn [negb] in *.
  - assert (Le : length el = length outer).
    { apply (eliminations_length expr_eq (fun _ _ _ => 0) (fun _ _ => 0)); [apply phis_length|]. specialize (HL _ Ep). now rewrite Eb in HL. }
    pose proof (replace_sizes el outer (phis 0 outer) Le Ep) as Er.
    destruct (Fin _ el s1 Er Ts Fl) as (sz & new & Ef & Fn & Ft & Fc & F4 & F5).
    pose proof (INI sz new _ el Er Ef) as F6.
    destruct (G _ Er) as (Tc' & _).
    destruct (body (replace el outer (phis 0 outer))) as [cond' outs'] eqn:Eb'. cbn [fst snd] in *. rewrite Ef in *. cbn [bind fst snd] in *.
    eexists. split; [reflexivity|]. split; [|exact Fn]. apply ASM; cbn [l_size l_cond l_new]; auto.
  - destruct (Fin _ el s1 Ep Ts Fl) as (sz & new & Ef & Fn & Ft & Fc & F4 & F5).
    pose proof (INI sz new _ el Ep Ef) as F6.
    rewrite Eb in *. cbn [fst snd] in *. fold s1 in Ef. rewrite Ef in *. cbn [bind fst snd] in *.
    eexists. split; [reflexivity|]. split; [|exact Fn]. apply ASM; cbn [l_size l_cond l_new]; auto.
Qed.
End Acc.
