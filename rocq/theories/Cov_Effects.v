(** Accumulation of cooperative vectors and of outer products. *)
From Verif Require Import Base Cov_Model Cov_Spec Cov_Proofs.
Local Open Scope N_scope.

Lemma prod_pairs {X Y} (l : list X) (m : list Y) : list_prod l m = flat_map (fun x => map (pair x) m) l.
Proof. induction l as [|x l IH]; cbn; [reflexivity|]. now rewrite IH. Qed.
Lemma upto_add a c : upto (a + c) = upto a ++ map (N.add a) (upto c).
Proof.
  unfold upto. rewrite N2Nat.inj_add, seq_app, map_app. f_equal. rewrite map_map. cbn [Nat.add].
  rewrite <- (Nat.add_0_r (N.to_nat a)) at 1. generalize 0%nat as s. generalize (N.to_nat c) as n.
  induction n as [|n IH]; intros s; cbn; [reflexivity|]. f_equal; [lia|]. rewrite <- IH. now rewrite Nat.add_succ_r.
Qed.
Lemma upto_mul p w : upto (p * w) = flat_map (fun q => map (fun r => q * w + r) (upto w)) (upto p).
Proof.
  induction p as [|p IH] using N.peano_ind; [reflexivity|].
  rewrite N.mul_succ_l, upto_add, IH, upto_succ, flat_map_app. cbn [flat_map]. now rewrite app_nil_r.
Qed.
Lemma each_app {X Y} (f : X -> out Y) l m : each f (l ++ m) = obind (each f l) (fun a => obind (each f m) (fun c => Val (a ++ c))).
Proof.
  induction l as [|x l IH]; cbn; [now destruct (each f m)|]. destruct (f x); cbn; auto. rewrite IH.
  destruct (each f l); cbn; auto. destruct (each f m); cbn; auto.
Qed.
Lemma each_rel {X Y} (f : X -> out Y) (P : X -> Y -> Prop) l :
  (forall x, In x l -> exists y, f x = Val y /\ P x y) -> exists ys, each f l = Val ys /\ Forall2 P l ys.
Proof.
  induction l as [|x l IH]; intros H; cbn; [exists []; auto|].
  destruct (H x (or_introl eq_refl)) as (y & -> & Py). destruct IH as (ys & -> & F); [intros; apply H; now right|].
  exists (y :: ys). cbn. auto.
Qed.

Lemma Forall2_impl' {A B} (P Q : A -> B -> Prop) l m : (forall a b, P a b -> Q a b) -> Forall2 P l m -> Forall2 Q l m.
Proof. intros H; induction 1; constructor; auto. Qed.
Section Sums.
Context {R : Type}.
Variables (ar : arith R) (eqv : N -> R -> R -> Prop) (t : N).
Hypothesis L : laws ar eqv.
Hypothesis X : exact_add ar eqv.
Notation add := (arith2 ar Add t).
Notation z := (of_bits ar t 0).
Notation "x ~ y" := (eqv t x y) (at level 70).
Let rf := x_all _ _ X t. Let sy := l_sym _ _ L t. Let tr := l_trans _ _ L t.
Lemma cong x x' y y' : x ~ x' -> y ~ y' -> add x y ~ add x' y'.
Proof. apply (l_arith2 _ _ L). Qed.
Lemma add0l x : add z x ~ x.
Proof. apply (l_add0 _ _ L); [reflexivity|apply rf]. Qed.
Lemma add0r x : add x z ~ x.
Proof. apply (l_add0 _ _ L); [reflexivity|apply rf]. Qed.
Lemma add4 a c d e : add (add a c) (add d e) ~ add (add a d) (add c e).
Proof.
  eapply tr; [apply (x_assoc _ _ X)|]. eapply tr; [|apply sy, (x_assoc _ _ X)]. apply cong; [apply rf|].
  eapply tr; [apply sy, (x_assoc _ _ X)|]. eapply tr; [|apply (x_assoc _ _ X)]. apply cong; [apply (x_comm _ _ X)|apply rf].
Qed.
(** Sum of [f] over a list *)
Definition big {A} (f : A -> R) (l : list A) : R := fold_right (fun a r => add (f a) r) z l.
Lemma big_ext {A} (f g : A -> R) l : (forall a, In a l -> f a ~ g a) -> big f l ~ big g l.
Proof. induction l as [|a l IH]; intros H; [apply rf|]. cbn. apply cong; [apply H; now left|apply IH; intros; apply H; now right]. Qed.
Lemma big_rel {A B} (f : A -> R) (g : B -> R) l m : Forall2 (fun a c => f a ~ g c) l m -> big f l ~ big g m.
Proof. induction 1; [apply rf|]. cbn. now apply cong. Qed.
Lemma big_map {A B} (f : B -> R) (g : A -> B) l : big f (map g l) = big (fun a => f (g a)) l.
Proof. induction l as [|a l IH]; cbn; [reflexivity|]. apply f_equal. exact IH. Qed.
Lemma big_app {A} (f : A -> R) l m : big f (l ++ m) ~ add (big f l) (big f m).
Proof. induction l as [|a l IH]; cbn; [apply sy, add0l|]. eapply tr; [apply cong; [apply rf|exact IH]|]. apply sy, (x_assoc _ _ X). Qed.
Lemma big_flat {A B} (f : B -> R) (g : A -> list B) l : big f (flat_map g l) ~ big (fun a => big f (g a)) l.
Proof. induction l as [|a l IH]; cbn; [apply rf|]. eapply tr; [apply big_app|]. apply cong; [apply rf|exact IH]. Qed.
Lemma big_zero {A} (f : A -> R) l : (forall a, In a l -> f a ~ z) -> big f l ~ z.
Proof.
  induction l as [|a l IH]; intros H; [apply rf|]. cbn. eapply tr; [apply cong; [apply H; now left|apply IH; intros; apply H; now right]|]. apply add0l.
Qed.
Lemma big_filter {A} (f : A -> R) p l : big f (filter p l) ~ big (fun a => if p a then f a else z) l.
Proof. induction l as [|a l IH]; cbn; [apply rf|]. destruct (p a); cbn; [apply cong; [apply rf|exact IH]|]. eapply tr; [exact IH|]. apply sy, add0l. Qed.
Lemma big_add {A} (f g : A -> R) l : big (fun a => add (f a) (g a)) l ~ add (big f l) (big g l).
Proof. induction l as [|a l IH]; cbn; [apply sy, add0l|]. eapply tr; [apply cong; [apply rf|exact IH]|]. apply add4. Qed.
Lemma big_swap {A B} (f : A -> B -> R) l m : big (fun a => big (f a) m) l ~ big (fun c => big (fun a => f a c) l) m.
Proof.
  induction l as [|a l IH]; cbn; [apply sy, big_zero; intros; apply rf|].
  eapply tr; [apply cong; [apply rf|exact IH]|]. apply sy. exact (big_add (f a) (fun c => big (fun a => f a c) l) m).
Qed.
Lemma big_perm {A} (f : A -> R) l m : Permutation l m -> big f l ~ big f m.
Proof.
  induction 1 as [|a l m P IH|a c l|l m n P1 IH1 P2 IH2]; cbn; [apply rf|apply cong; [apply rf|exact IH]| |eapply tr; eauto].
  eapply tr; [apply sy, (x_assoc _ _ X)|]. eapply tr; [|apply (x_assoc _ _ X)]. apply cong; [apply (x_comm _ _ X)|apply rf].
Qed.
Lemma sum_big l : sum ar t l ~ big (fun x => x) l.
Proof.
  assert (G : forall a, fold_left add l a ~ add a (big (fun x => x) l)).
  { induction l as [|x l IH]; intros a; cbn; [apply sy, add0r|]. eapply tr; [apply IH|]. apply (x_assoc _ _ X). }
  unfold sum. eapply tr; [apply G|apply add0l].
Qed.
Lemma sum_rel l m : Forall2 (eqv t) l m -> sum ar t l ~ big (fun x => x) m.
Proof. intros H. eapply tr; [apply sum_big|]. apply big_rel. exact H. Qed.
(** Amounts added at position [k] *)
Definition here (k : N) (e : Z * R) : R := if (fst e =? Z.of_N k)%Z then snd e else z.
Definition at_k (k : N) (e : N * R) : R := if fst e =? k then snd e else z.
Lemma total_big k l : total ar t k l ~ big (at_k k) l.
Proof.
  unfold total. eapply tr; [|apply sy, (big_ext _ (fun e => if fst e =? k then snd e else z)); intros; apply rf].
  eapply tr; [|apply (big_filter snd)]. generalize (filter (fun e => fst e =? k) l) as m.
  induction m as [|e m IH]; cbn; [apply rf|]. apply cong; [apply rf|exact IH].
Qed.
(** ** Atomic additions *)
Lemma perform_ok evs : forall m, Forall (fun e => (0 <= fst e < Z.of_nat (length m))%Z) evs ->
  exists m', perform ar t evs m = Val m' /\ length m' = length m /\
    forall k d, (k < length m)%nat -> nth k m' d ~ add (nth k m d) (big (here (N.of_nat k)) evs).
Proof.
  induction evs as [|e evs IH]; intros m F.
  - exists m. split; [reflexivity|]. split; [reflexivity|]. intros k d _. cbn. apply sy, add0r.
  - inversion F as [|? ? He Fe]; subst. destruct e as [a x]. cbn [fst] in He.
    set (d0 := z). set (y := nth (Z.to_nat a) m d0).
    assert (G : get m a = Val y).
    { replace a with (Z.of_N (Z.to_N a)) by lia. rewrite (get_nth d0) by lia. unfold y. f_equal. f_equal. lia. }
    set (m1 := set_nth (Z.to_nat a) (add y x) m).
    assert (L1 : length m1 = length m) by apply set_nth_length.
    destruct (IH m1) as (m' & E & Lm & H); [rewrite L1; exact Fe|].
    exists m'. split; [|split; [congruence|]].
    + unfold perform in *. cbn [fold_left]. unfold atomic_add at 2. cbn [obind fst snd]. rewrite G. cbn [obind]. exact E.
    + intros k d Hk. eapply tr; [apply H; lia|]. cbn [big fold_right]. fold (big (here (N.of_nat k)) evs). unfold here at 2. cbn [fst snd].
      destruct (Z.eqb_spec a (Z.of_N (N.of_nat k))) as [Ea|Na].
      * assert (Ek : Z.to_nat a = k) by lia. unfold m1. rewrite Ek, nth_set_nth_eq by lia. unfold y. rewrite Ek, (nth_indep m d0 d) by lia. apply (x_assoc _ _ X).
      * unfold m1. rewrite nth_set_nth_neq by lia. apply cong; [apply rf|apply sy, add0l].
Qed.
(** ** Additions by lane and additions by packet *)
Section Shape.
Context {C : Type}.
Variables (cs : list C) (adr : C -> N) (g : C -> N -> R) (size : N) (mask : N -> bool) (w : N).
Definition by_lane : list (N * R) := flat_map (fun l => map (fun c => (adr c, g c l)) cs) (filter mask (upto size)).
Lemma by_lane_big k : big (at_k k) by_lane ~ big (fun c => if adr c =? k then big (fun l => if mask l then g c l else z) (upto size) else z) cs.
Proof.
  unfold by_lane. eapply tr; [apply big_flat|]. eapply tr; [apply big_filter|].
  eapply tr; [apply (big_ext _ (fun l => big (fun c => if adr c =? k then if mask l then g c l else z else z) cs))|].
  { intros l _. destruct (mask l).
    - rewrite big_map. apply big_ext. intros c _. unfold at_k. cbn [fst snd]. apply rf.
    - apply sy, big_zero. intros c _. destruct (adr c =? k); apply rf. }
  eapply tr; [apply (big_swap (fun l c => if adr c =? k then if mask l then g c l else z else z))|].
  apply big_ext. intros c _. destruct (adr c =? k); [apply rf|]. apply big_zero. intros; apply rf.
Qed.
Lemma lanes_metal evs k :
  Forall2 (fun lc e => fst e = Z.of_N (adr (snd lc)) /\ snd e ~ g (snd lc) (fst lc)) (list_prod (filter mask (upto size)) cs) evs ->
  big (here k) evs ~ big (at_k k) by_lane.
Proof.
  intros H. apply sy. eapply tr; [|apply (big_rel (fun lc => if adr (snd lc) =? k then g (snd lc) (fst lc) else z)); eapply Forall2_impl'; [|exact H]].
  - rewrite prod_pairs. unfold by_lane. eapply tr; [apply big_flat|]. apply sy. eapply tr; [apply big_flat|].
    apply big_ext. intros l _. rewrite !big_map. apply big_ext. intros c _. apply rf.
  - intros lc e (A & B). unfold here. rewrite A. destruct (N.eqb_spec (adr (snd lc)) k) as [->|Ne].
    + rewrite Z.eqb_refl. now apply sy.
    + replace (Z.of_N (adr (snd lc)) =? Z.of_N k)%Z with false by (symmetry; apply Z.eqb_neq; lia). apply rf.
Qed.
Lemma lanes_llvm evs k : 0 < w ->
  Forall2 (fun pc e => fst e = Z.of_N (adr (snd pc)) /\
             snd e ~ big (fun q => if (fst pc * w + q <? size) && mask (fst pc * w + q) then g (snd pc) (fst pc * w + q) else z) (upto w))
          (list_prod (upto ((size + w - 1) / w)) cs) evs ->
  big (here k) evs ~ big (at_k k) by_lane.
Proof.
  intros Hw H. set (P := (size + w - 1) / w) in *.
  assert (HP : size <= P * w).
  { unfold P. pose proof (N.div_mod' (size + w - 1) w). pose proof (N.mod_lt (size + w - 1) w). lia. }
  set (F := fun c l => if (l <? size) && mask l then g c l else z).
  apply sy. eapply tr; [apply by_lane_big|].
  eapply tr; [|apply (big_rel (fun pc => if adr (snd pc) =? k then big (fun q => F (snd pc) (fst pc * w + q)) (upto w) else z)); eapply Forall2_impl'; [|exact H]].
  - rewrite prod_pairs. apply sy. eapply tr; [apply big_flat|].
    eapply tr; [apply (big_ext _ (fun p => big (fun c => if adr c =? k then big (fun q => F c (p * w + q)) (upto w) else z) cs)); intros p _; rewrite big_map; apply rf|].
    eapply tr; [apply (big_swap (fun p c => if adr c =? k then big (fun q => F c (p * w + q)) (upto w) else z))|].
    apply big_ext. intros c _. destruct (adr c =? k); [|apply big_zero; intros; apply rf].
    apply (tr _ (big (F c) (upto (P * w)))).
    + rewrite upto_mul. apply sy. eapply tr; [apply big_flat|]. apply big_ext. intros p _. rewrite big_map. apply rf.
    + replace (P * w) with (size + (P * w - size)) by lia. rewrite upto_add. eapply tr; [apply big_app|].
      eapply tr; [apply cong; [apply rf|apply big_zero]|].
      * intros l Hl. apply in_map_iff in Hl as (q & <- & _). unfold F. replace (size + q <? size) with false by lia. apply rf.
      * eapply tr; [apply add0r|]. apply big_ext. intros l Hl. apply upto_in in Hl. unfold F. replace (l <? size) with true by lia. apply rf.
  - intros pc e (A & B). unfold here. rewrite A. destruct (N.eqb_spec (adr (snd pc)) k) as [->|Ne].
    + rewrite Z.eqb_refl. now apply sy.
    + replace (Z.of_N (adr (snd pc)) =? Z.of_N k)%Z with false by (symmetry; apply Z.eqb_neq; lia). apply rf.
Qed.
End Shape.
End Sums.

(** ** Effects *)
Section Effects.
Context {R : Type}.
Variables (b : bk) (ar : arith R) (st : store R) (late : N -> bool) (act : N -> bool) (eqv : N -> R -> R -> Prop) (w : N).
Hypothesis L : laws ar eqv.
Hypothesis X : exact_add ar eqv.
Hypothesis W : 0 < w.
Variable h : heap.
Notation val_ := (value b ar st late false act).
Notation atoms := (atomics b ar st late false act w).
(** What is known about the variables *)
Definition known (a : N) (v : vec R) : Prop :=
  exists nd, at_ h a = Some nd /\ n_ty nd = s_ty v /\ n_len nd = s_len v /\ s_len v < 2 ^ 16 /\
    forall l, s_size v = 1 \/ l < s_size v -> exists xs, val_ h l a = Val xs /\ Forall2 (eqv (s_ty v)) xs (pick v l) /\ length xs = N.to_nat (s_len v).
Lemma comp_ok a v i l : known a v -> i < s_len v -> s_size v = 1 \/ l < s_size v ->
  exists x, comp b ar st late false act h a i l = Val x /\ eqv (s_ty v) x (nth (N.to_nat i) (pick v l) (of_bits ar 0 0)).
Proof.
  intros (nd & _ & _ & _ & _ & H) Hi Hl. destruct (H l Hl) as (xs & E & F & Ln). unfold comp. rewrite E. cbn [obind].
  rewrite (get_nth (of_bits ar 0 0)) by lia. eexists. split; [reflexivity|]. eapply nth_eqv; [exact F|lia].
Qed.
Lemma lane_length a v l : known a v -> s_size v = 1 \/ l < s_size v -> N.of_nat (length (pick v l)) = s_len v.
Proof. intros (nd & _ & _ & _ & _ & H) Hl. destruct (H l Hl) as (xs & E & F & Ln). rewrite <- (Forall2_len _ _ _ F). lia. Qed.
Lemma wide_lane (v : vec R) size l : wide v size -> l < size -> s_size v = 1 \/ l < s_size v.
Proof. unfold wide. lia. Qed.
Lemma lanes_in mask size l : In l (filter mask (upto size)) -> l < size /\ mask l = true.
Proof. intros H. apply filter_In in H as (H & M). apply upto_in in H. auto. Qed.
Lemma packet_ok t size mask f g p :
  (forall l, l < size -> exists x, f l = Val x /\ eqv t x (g l)) ->
  exists y, packet_sum ar w t size mask f p = Val y /\
    eqv t y (big ar t (fun q => if (p * w + q <? size) && mask (p * w + q) then g (p * w + q) else of_bits ar t 0) (upto w)).
Proof.
  intros H. unfold packet_sum.
  destruct (each_rel (fun q => if (p * w + q <? size) && mask (p * w + q) then f (p * w + q) else Val (of_bits ar t 0))
              (fun q x => eqv t x (if (p * w + q <? size) && mask (p * w + q) then g (p * w + q) else of_bits ar t 0)) (upto w)) as (xs & -> & F).
  { intros q _. cbv zeta. destruct (N.ltb_spec (p * w + q) size) as [Lt|]; cbn [andb].
    - destruct (mask (p * w + q)); [now apply H|]. eexists. split; [reflexivity|]. apply (x_all _ _ X).
    - eexists. split; [reflexivity|]. apply (x_all _ _ X). }
  cbn [obind]. eexists. split; [reflexivity|]. eapply (l_trans _ _ L); [apply (sum_big ar eqv t L X)|].
  apply (l_sym _ _ L), (big_rel ar eqv t L X (fun q => if (p * w + q <? size) && mask (p * w + q) then g (p * w + q) else of_bits ar t 0) (fun x => x)). eapply Forall2_impl'; [|exact F]. intros q x. apply (l_sym _ _ L).
Qed.
Lemma flat_map_ext_in {A B} (f g : A -> list B) l : (forall a, In a l -> f a = g a) -> flat_map f l = flat_map g l.
Proof. induction l as [|a l IH]; intros H; cbn; [reflexivity|]. rewrite H by now left. f_equal. apply IH. intros; apply H; now right. Qed.
Lemma combine_map_l {A B C} (f : A -> B) (l : list A) (m : list C) : combine (map f l) m = map (fun p => (f (fst p), snd p)) (combine l m).
Proof. revert m. induction l as [|a l IH]; intros [|c m]; cbn; try reflexivity. now rewrite IH. Qed.
Lemma Forall2_in {A B} (P : A -> B -> Prop) l m : Forall2 P l m -> forall y, In y m -> exists x, In x l /\ P x y.
Proof. induction 1 as [|a c l m H F IH]; intros y []; [subst; eexists; split; [now left|auto]|]. destruct (IH y H0) as (x & I & Q). exists x. split; [now right|auto]. Qed.

(** Additions of an effect: where, and how much in total *)
Lemma effect_ok t n e x y :
  n < 2 ^ 32 -> addable b t -> (forall a v, In (a, v) (map (fun p => p) (match e with EAdd _ a _ _ => [(a, x)] | EOuter _ a c _ _ => [(a, x); (c, y)] end)) -> known a v) ->
  match e with
  | EAdd off _ size _ => s_ty x = t /\ wide x size /\ off + s_len x <= n /\ (b = LLVM -> off + s_len x <= 2 ^ 31)
  | EOuter d _ _ size _ => s_ty x = t /\ s_ty y = t /\ wide x size /\ wide y size /\
      (forall i j, i < s_len x -> j < s_len y -> d_off d + i * d_stride d + j < n) /\ (b = LLVM -> d_off d * tsz t < 2 ^ 31)
  end ->
  exists evs, atoms h e = Val evs /\ Forall (fun e => (0 <= fst e < Z.of_N n)%Z) evs /\
    forall k, eqv t (big ar t (here ar t k) evs) (big ar t (at_k ar t k) (additions ar t e (pick x) (pick y))).
Proof.
  intros Hn Ad Kn Hyp. set (dx := of_bits ar 0 0).
  assert (FO : float_ok b t = true) by (unfold float_ok, addable in *; destruct b; [exact Ad|now apply N.eqb_eq]).
  destruct e as [off a size mask|d a c size mask].
  - destruct Hyp as (T & Wx & Bd & B31). pose proof (Kn a x (or_introl eq_refl)) as Ka.
    set (cs := upto (s_len x)). set (adr := N.add off). set (g := fun i l => nth (N.to_nat i) (pick x l) dx).
    assert (SP : additions ar t (EAdd off a size mask) (pick x) (pick y) = by_lane cs adr g size mask).
    { cbn [additions]. unfold by_lane. apply flat_map_ext_in. intros l Hl. apply lanes_in in Hl as (Hl & _).
      rewrite combine_map_l, (combine_upto dx), map_map. cbn [fst snd]. unfold cs. rewrite (lane_length _ _ _ Ka (wide_lane _ _ _ Wx Hl)). reflexivity. }
    rewrite SP. pose proof Ka as (nd & At & Tn & Ln & U & _). unfold atomics. rewrite At, Tn, Ln, T, FO. cbn [negb].
    destruct b eqn:Eb.
    + edestruct (each_rel (fun pi => obind (packet_sum ar w t size mask (comp LLVM ar st late false act h a (snd pi)) (fst pi)) (fun x0 => Val (s32 (u32 (off + snd pi)), x0)))
          (fun pc e => (fst e = Z.of_N (adr (snd pc)) /\
             eqv t (snd e) (big ar t (fun q => if (fst pc * w + q <? size) && mask (fst pc * w + q) then g (snd pc) (fst pc * w + q) else of_bits ar t 0) (upto w))) /\ In (snd pc) cs)
          (list_prod (upto ((size + w - 1) / w)) cs)) as (evs & E & F).
      { intros [p i] Hi. apply in_prod_iff in Hi as (_ & Hi). pose proof Hi as Hi2. apply upto_in in Hi. cbn [fst snd].
        destruct (packet_ok t size mask (comp LLVM ar st late false act h a i) (g i) p) as (q & -> & Q).
        { intros l Hl. rewrite <- Eb, <- T. apply comp_ok; auto. eapply wide_lane; eauto. }
        cbn [obind]. eexists. split; [reflexivity|]. cbn [fst snd]. specialize (B31 eq_refl). repeat split; auto. rewrite u32_small, s32_small by lia. reflexivity. }
      exists evs. split; [exact E|]. split.
      * apply Forall_forall. intros e He. destruct (Forall2_in _ _ _ F e He) as (pc & _ & ((-> & _) & Hc)). apply upto_in in Hc. unfold adr. lia.
      * intros k. apply (lanes_llvm ar eqv t L X cs adr g size mask w evs k W). eapply Forall2_impl'; [|exact F]. intros ? ? (H & _). exact H.
    + edestruct (each_rel (fun li => obind (comp Metal ar st late false act h a (snd li) (fst li)) (fun x0 => Val (Z.of_N (u32 (off + snd li)), x0)))
          (fun lc e => (fst e = Z.of_N (adr (snd lc)) /\ eqv t (snd e) (g (snd lc) (fst lc))) /\ In (snd lc) cs)
          (list_prod (filter mask (upto size)) cs)) as (evs & E & F).
      { intros [l i] Hi. apply in_prod_iff in Hi as (Hl & Hi). pose proof Hi as Hi2. apply upto_in in Hi. apply lanes_in in Hl as (Hl & _). cbn [fst snd].
        destruct (comp_ok a x i l Ka Hi (wide_lane _ _ _ Wx Hl)) as (q & Eq & Q). rewrite T in Q. rewrite Eb in Eq. rewrite Eq. cbn [obind]. eexists. split; [reflexivity|].
        cbn [fst snd]. repeat split; auto. rewrite u32_small by lia. reflexivity. }
      exists evs. split; [exact E|]. split.
      * apply Forall_forall. intros e He. destruct (Forall2_in _ _ _ F e He) as (pc & _ & ((-> & _) & Hc)). apply upto_in in Hc. unfold adr. lia.
      * intros k. apply (lanes_metal ar eqv t L X cs adr g size mask evs k). eapply Forall2_impl'; [|exact F]. intros ? ? (H & _). exact H.
  - destruct Hyp as (T & Ty & Wx & Wy & Bd & B31). pose proof (Kn a x (or_introl eq_refl)) as Ka. pose proof (Kn c y (or_intror (or_introl eq_refl))) as Kc.
    set (cs := list_prod (upto (s_len x)) (upto (s_len y))). set (adr := fun ij : N * N => d_off d + fst ij * d_stride d + snd ij).
    set (g := fun (ij : N * N) l => arith2 ar Mul t (nth (N.to_nat (fst ij)) (pick x l) dx) (nth (N.to_nat (snd ij)) (pick y l) dx)).
    assert (SP : additions ar t (EOuter d a c size mask) (pick x) (pick y) = by_lane cs adr g size mask).
    { cbn [additions]. unfold by_lane. apply flat_map_ext_in. intros l Hl. apply lanes_in in Hl as (Hl & _).
      rewrite !(combine_upto dx). unfold cs. rewrite (lane_length _ _ _ Ka (wide_lane _ _ _ Wx Hl)), (lane_length _ _ _ Kc (wide_lane _ _ _ Wy Hl)).
      rewrite prod_pairs. rewrite (flat_map_concat_map _ (map _ _)), map_map. cbn [fst snd].
      rewrite <- flat_map_concat_map. generalize (upto (s_len x)) as u. induction u as [|i u IH]; [reflexivity|]. cbn [flat_map]. rewrite map_app, IH. f_equal. now rewrite !map_map. }
    rewrite SP. pose proof Ka as (nd & At & Tn & Ln & U & _). pose proof Kc as (nd' & At' & Tn' & Ln' & U' & _). unfold atomics. rewrite At, At', Tn, Ln, Ln', T, FO. cbn [negb].
    destruct b eqn:Eb.
    + edestruct (each_rel (fun pij : N * (N * N) => let '(p, (i, j)) := pij in
                      obind (packet_sum ar w t size mask (fun l => mulo ar t (comp LLVM ar st late false act h a i l) (comp LLVM ar st late false act h c j l)) p)
                            (fun x => Val ((s32 (u32 (d_off d * tsz t)) / Z.of_N (tsz t) + s32 i * Z.of_N (d_stride d) + s32 j)%Z, x)))
          (fun pc e => (fst e = Z.of_N (adr (snd pc)) /\
             eqv t (snd e) (big ar t (fun q => if (fst pc * w + q <? size) && mask (fst pc * w + q) then g (snd pc) (fst pc * w + q) else of_bits ar t 0) (upto w))) /\ In (snd pc) cs)
          (list_prod (upto ((size + w - 1) / w)) cs)) as (evs & E & F).
      { intros [p [i j]] Hi. apply in_prod_iff in Hi as (_ & Hi). pose proof Hi as Hi2. apply in_prod_iff in Hi as (Hi & Hj). apply upto_in in Hi, Hj. cbn [fst snd].
        destruct (packet_ok t size mask (fun l => mulo ar t (comp LLVM ar st late false act h a i l) (comp LLVM ar st late false act h c j l)) (g (i, j)) p) as (q & -> & Q).
        { intros l Hl. destruct (comp_ok a x i l Ka Hi (wide_lane _ _ _ Wx Hl)) as (q & Eq & Q). destruct (comp_ok c y j l Kc Hj (wide_lane _ _ _ Wy Hl)) as (r & Er & Qr). rewrite T in Q. rewrite Ty in Qr.
          rewrite Eb in Eq, Er. unfold mulo. rewrite Eq, Er. cbn [obind]. eexists. split; [reflexivity|]. now apply (l_arith2 _ _ L). }
        cbn [obind]. eexists. split; [reflexivity|]. cbn [fst snd]. specialize (B31 eq_refl). repeat split; auto.
        rewrite u32_small by lia. rewrite !s32_small by lia.
        assert (Tz : tsz t <> 0) by (unfold addable, is_float, Float16, Float32, Float64 in Ad; assert (t = 13 \/ t = 14 \/ t = 15) as [->|[->| ->]] by lia; vm_compute; discriminate).
        rewrite N2Z.inj_mul, Z.div_mul by lia. unfold adr. cbn [fst snd]. lia. }
      exists evs. split; [exact E|]. split.
      * apply Forall_forall. intros e He. destruct (Forall2_in _ _ _ F e He) as (pc & _ & ((-> & _) & Hc)). destruct (snd pc) as [i j]. apply in_prod_iff in Hc as (Hi & Hj). apply upto_in in Hi, Hj.
        specialize (Bd i j Hi Hj). unfold adr. cbn [fst snd]. lia.
      * intros k. apply (lanes_llvm ar eqv t L X cs adr g size mask w evs k W). eapply Forall2_impl'; [|exact F]. intros ? ? (H & _). exact H.
    + edestruct (each_rel (fun lij : N * (N * N) => let '(l, (i, j)) := lij in
                      obind (mulo ar t (comp Metal ar st late false act h a i l) (comp Metal ar st late false act h c j l)) (fun x => Val (Z.of_N (u32 (d_off d + i * d_stride d + j)), x)))
          (fun lc e => (fst e = Z.of_N (adr (snd lc)) /\ eqv t (snd e) (g (snd lc) (fst lc))) /\ In (snd lc) cs)
          (list_prod (filter mask (upto size)) cs)) as (evs & E & F).
      { intros [l [i j]] Hi. apply in_prod_iff in Hi as (Hl & Hi). pose proof Hi as Hi2. apply in_prod_iff in Hi as (Hi & Hj). apply upto_in in Hi, Hj. apply lanes_in in Hl as (Hl & _). cbn [fst snd].
        destruct (comp_ok a x i l Ka Hi (wide_lane _ _ _ Wx Hl)) as (q & Eq & Q). destruct (comp_ok c y j l Kc Hj (wide_lane _ _ _ Wy Hl)) as (r & Er & Qr). rewrite T in Q. rewrite Ty in Qr.
        rewrite Eb in Eq, Er. unfold mulo. rewrite Eq, Er. cbn [obind]. eexists. split; [reflexivity|].
        cbn [fst snd]. specialize (Bd i j Hi Hj). repeat split; auto; [rewrite u32_small by lia; reflexivity|]. now apply (l_arith2 _ _ L). }
      exists evs. split; [exact E|]. split.
      * apply Forall_forall. intros e He. destruct (Forall2_in _ _ _ F e He) as (pc & _ & ((-> & _) & Hc)). destruct (snd pc) as [i j]. apply in_prod_iff in Hc as (Hi & Hj). apply upto_in in Hi, Hj.
        specialize (Bd i j Hi Hj). unfold adr. cbn [fst snd]. lia.
      * intros k. apply (lanes_metal ar eqv t L X cs adr g size mask evs k). eapply Forall2_impl'; [|exact F]. intros ? ? (H & _). exact H.
Qed.
Lemma effects_ok t n vars es :
  n < 2 ^ 32 -> addable b t -> (forall a v, In (a, v) vars -> known a v) -> Forall (good_effect b vars t n) es ->
  exists ls, each (fun exy => atoms h (fst (fst exy))) es = Val ls /\ Forall (fun e => (0 <= fst e < Z.of_N n)%Z) (concat ls) /\
    forall k, eqv t (big ar t (here ar t k) (concat ls)) (big ar t (at_k ar t k) (all_additions ar t es)).
Proof.
  intros Hn Ad Kn. induction 1 as [|[[e x] y] es G F IH]; cbn [each].
  - exists []. repeat split; [constructor|]. intros k. apply (x_all _ _ X).
  - destruct (effect_ok t n e x y Hn Ad) as (evs & E & R1 & T1).
    { intros a v Hv. apply Kn. destruct e as [off a' size mask|d a' c' size mask]; cbn in Hv, G.
      - destruct Hv as [Q|[]]. injection Q as <- <-. tauto.
      - destruct Hv as [Q|[Q|[]]]; injection Q as <- <-; tauto. }
    { destruct e as [off a' size mask|d a' c' size mask]; cbn in G; tauto. }
    destruct IH as (ls & El & R2 & T2). cbn [fst]. rewrite E. cbn [obind]. rewrite El. cbn [obind].
    exists (evs :: ls). split; [reflexivity|]. cbn [concat]. split; [apply Forall_app; auto|].
    intros k. unfold all_additions. cbn [flat_map].
    eapply (l_trans _ _ L); [apply (big_app _ _ _ L X)|]. eapply (l_trans _ _ L); [|apply (l_sym _ _ L), (big_app _ _ _ L X)].
    apply (l_arith2 _ _ L); [apply T1|apply T2].
Qed.
Lemma accumulate_ok t vars es m :
  N.of_nat (length m) < 2 ^ 32 -> addable b t -> (forall a v, In (a, v) vars -> known a v) -> Forall (good_effect b vars t (N.of_nat (length m))) es ->
  exists ls, each (fun exy => atoms h (fst (fst exy))) es = Val ls /\
    forall evs, Permutation evs (concat ls) ->
    exists m', perform ar t evs m = Val m' /\ length m' = length m /\
      forall k d, k < N.of_nat (length m) -> eqv t (nth (N.to_nat k) m' d) (arith2 ar Add t (nth (N.to_nat k) m d) (total ar t k (all_additions ar t es))).
Proof.
  intros Hn Ad Kn G. destruct (effects_ok t _ vars es Hn Ad Kn G) as (ls & E & Rg & T). exists ls. split; [exact E|].
  intros evs P. destruct (perform_ok ar eqv t L X evs m) as (m' & Em & Lm & H).
  { apply Forall_forall. intros e He. rewrite Forall_forall in Rg. specialize (Rg e (Permutation_in _ P He)). lia. }
  exists m'. split; [exact Em|]. split; [exact Lm|]. intros k d Hk.
  eapply (l_trans _ _ L); [apply H; lia|]. apply (l_arith2 _ _ L); [apply (x_all _ _ X)|]. rewrite N2Nat.id.
  eapply (l_trans _ _ L); [apply (big_perm _ _ _ L X); exact P|]. eapply (l_trans _ _ L); [apply T|]. apply (l_sym _ _ L), (total_big _ _ _ L X).
Qed.
End Effects.

Theorem training_ok {R} b (ar : arith R) st late act eqv w p t es m :
  laws ar eqv -> exact_add ar eqv -> store_ok st -> store_typed st eqv -> 0 < w -> good b st [] [] p ->
  N.of_nat (length m) < 2 ^ 32 -> addable b t ->
  match run st [] [] p, meanings b ar st [] p with
  | Some (h, regs), Some env =>
      Forall (good_effect b (combine regs env) t (N.of_nat (length m))) es ->
      exists ls, each (fun exy => atomics b ar st late false act w h (fst (fst exy))) es = Val ls /\
      forall evs, Permutation evs (concat ls) ->
      exists m', perform ar t evs m = Val m' /\ length m' = length m /\
        forall k d, k < N.of_nat (length m) -> eqv t (nth (N.to_nat k) m' d) (arith2 ar Add t (nth (N.to_nat k) m d) (total ar t k (all_additions ar t es)))
  | None, None => True
  | _, _ => False
  end.
Proof.
  intros L X SOK STY W G Hm Ad. pose proof (program_ok b ar st late false act eqv L SOK STY p G) as H.
  destruct (run st [] [] p) as [[h regs]|], (meanings b ar st [] p) as [env|]; try easy.
  destruct H as (Ln & H). intros GE. apply (accumulate_ok b ar st late act eqv w L X W h t (combine regs env) es m Hm Ad); auto.
  intros a v I. apply In_nth_error in I as (r & I).
  assert (nth_error regs r = Some a /\ nth_error env r = Some v) as (I1 & I2).
  { clear -I. revert env r I. induction regs as [|q regs IH]; intros [|e env] [|r] I; cbn in *; try discriminate; auto. injection I as -> ->. auto. }
  destruct (H r a v I1 I2) as (nd & A & T & S1 & L1 & U & V). exists nd. repeat (split; [assumption|]). intros l Hl. apply V; auto.
Qed.
