(** Values of cooperative vectors. *)
From Verif Require Import Base Cov_Model Cov_Spec.
Local Open Scope N_scope.

(** ** Lists *)
Lemma upto_length n : length (upto n) = N.to_nat n.
Proof. unfold upto. now rewrite map_length, seq_length. Qed.
Lemma upto_in n k : In k (upto n) <-> k < n.
Proof.
  unfold upto. rewrite in_map_iff. split.
  - intros (x & <- & H). apply in_seq in H. lia.
  - intros H. exists (N.to_nat k). split; [lia|]. apply in_seq. lia.
Qed.
Lemma upto_succ n : upto (N.succ n) = upto n ++ [n].
Proof. unfold upto. rewrite N2Nat.inj_succ, seq_S, map_app. cbn. now rewrite N2Nat.id. Qed.
Lemma upto_nth n k : k < n -> nth_error (upto n) (N.to_nat k) = Some k.
Proof.
  intros H. unfold upto. rewrite nth_error_map.
  assert (E : nth_error (seq 0 (N.to_nat n)) (N.to_nat k) = Some (N.to_nat k)).
  { rewrite nth_error_nth' with (d := 0%nat) by (rewrite seq_length; lia). rewrite seq_nth by lia. reflexivity. }
  rewrite E. cbn. now rewrite N2Nat.id.
Qed.
Lemma list_eq_nth {X} (l m : list X) : length l = length m -> (forall k, (k < length l)%nat -> nth_error l k = nth_error m k) -> l = m.
Proof.
  revert m. induction l as [|x l IH]; intros [|y m] E H; cbn in E; try discriminate; auto.
  pose proof (H 0%nat ltac:(cbn; lia)) as H0. cbn in H0. injection H0 as ->. f_equal.
  apply IH; [lia|]. intros k Hk. exact (H (S k) ltac:(cbn; lia)).
Qed.
Lemma set_nth_upto {X} (f : N -> X) m k z :
  set_nth (N.to_nat k) z (map f (upto m)) = map (fun i => if i =? k then z else f i) (upto m).
Proof.
  apply list_eq_nth; [rewrite set_nth_length, !map_length; reflexivity|].
  intros q Hq. rewrite set_nth_length, map_length, upto_length in Hq.
  destruct (Nat.eq_dec q (N.to_nat k)) as [->|Ne].
  - rewrite nth_error_set_nth_eq by (rewrite map_length, upto_length; lia).
    rewrite nth_error_map, upto_nth by lia. cbn. now rewrite N.eqb_refl.
  - rewrite nth_error_set_nth_neq by congruence. rewrite !nth_error_map.
    replace q with (N.to_nat (N.of_nat q)) by lia. rewrite !upto_nth by lia. cbn.
    replace (N.of_nat q =? k) with false by (symmetry; apply N.eqb_neq; lia). reflexivity.
Qed.
Lemma as_upto {X} (d : X) (l : list X) : l = map (fun i => nth (N.to_nat i) l d) (upto (N.of_nat (length l))).
Proof.
  apply list_eq_nth; [rewrite map_length, upto_length; lia|].
  intros k Hk. rewrite nth_error_map. replace k with (N.to_nat (N.of_nat k)) at 2 by lia.
  rewrite upto_nth by lia. cbn. rewrite Nat2N.id. now apply nth_error_nth'.
Qed.
Lemma combine_upto {X} (d : X) (l : list X) : combine (upto (N.of_nat (length l))) l = map (fun j => (j, nth (N.to_nat j) l d)) (upto (N.of_nat (length l))).
Proof.
  rewrite (as_upto d l) at 2. generalize (upto (N.of_nat (length l))) as u. intros u.
  induction u as [|x u IH]; cbn; [reflexivity|]. now rewrite IH.
Qed.
Lemma get_nth {X} (d : X) l k : k < N.of_nat (length l) -> get l (Z.of_N k) = Val (nth (N.to_nat k) l d).
Proof.
  intros H. unfold get. replace (Z.of_N k <? 0)%Z with false by lia.
  replace (Z.to_nat (Z.of_N k)) with (N.to_nat k) by lia.
  now rewrite nth_error_nth' with (d := d) by lia.
Qed.
Lemma s32_small k : k < 2 ^ 31 -> s32 k = Z.of_N k.
Proof. intros H. unfold s32. now rewrite (proj2 (N.ltb_lt _ _) H). Qed.
Lemma each_ok {X Y} (f : X -> out Y) (g : X -> Y) l : (forall x, In x l -> f x = Val (g x)) -> each f l = Val (map g l).
Proof.
  induction l as [|x l IH]; intros H; cbn; [reflexivity|].
  rewrite H by now left. cbn. rewrite IH by (intros; apply H; now right). reflexivity.
Qed.
Lemma u16_small k : k < 2 ^ 16 -> u16 k = k.
Proof. intros; unfold u16; now apply N.mod_small. Qed.

(** ** Heaps *)
Definition sim (v w : node) : Prop := n_kind v = n_kind w /\ n_ty v = n_ty w /\ n_size v = n_size w /\ n_len v = n_len w.
Definition ext (h h' : heap) : Prop := exists p s, h' = p ++ s /\ Forall2 sim h p.
Lemma sim_refl v : sim v v.
Proof. unfold sim; auto. Qed.
Lemma Forall2_sim_refl h : Forall2 sim h h.
Proof. induction h; constructor; auto using sim_refl. Qed.
Lemma ext_refl h : ext h h.
Proof. exists h, []. rewrite app_nil_r. split; auto using Forall2_sim_refl. Qed.
Lemma Forall2_sim_trans a c d : Forall2 sim a c -> Forall2 sim c d -> Forall2 sim a d.
Proof.
  intros H; revert d; induction H as [|x y l m Hs H IH]; intros d H2; inversion H2; subst; constructor; auto.
  unfold sim in *. intuition congruence.
Qed.
Lemma ext_trans a c d : ext a c -> ext c d -> ext a d.
Proof.
  intros (p & s & -> & H) (q & u & -> & H2).
  apply Forall2_app_inv_l in H2 as (q1 & q2 & H1 & H2' & ->).
  exists q1, (q2 ++ u). rewrite app_assoc. split; auto. eapply Forall2_sim_trans; eauto.
Qed.
Lemma set_nth_app_sim h k v w : nth_error h k = Some v -> sim v w -> Forall2 sim h (set_nth k w h).
Proof.
  revert k. induction h as [|x h IH]; intros [|k] H Hs; cbn in *; try discriminate.
  - injection H as ->. constructor; auto using Forall2_sim_refl.
  - constructor; auto using sim_refl.
Qed.
Lemma on_ext h a f : (forall v, sim v (f v)) -> ext h (on h a f).
Proof.
  intros H. unfold on, at_. destruct (nth_error h (N.to_nat a)) as [v|] eqn:E; [|apply ext_refl].
  exists (set_nth (N.to_nat a) (f v) h), []. rewrite app_nil_r. split; auto. eapply set_nth_app_sim; eauto.
Qed.
Lemma inc_ext h a : ext h (inc h a).
Proof. apply on_ext. intros v; unfold sim; auto. Qed.
Lemma dec_ext h a : ext h (dec h a).
Proof. apply on_ext. intros v; unfold sim; auto. Qed.
Lemma app_ext h s : ext h (h ++ s).
Proof. exists h, s. auto using Forall2_sim_refl. Qed.
Lemma new_ext h h' k t s l : ext h h' -> ext h (fst (new h' k t s l)).
Proof. intros H. eapply ext_trans; [exact H|]. apply app_ext. Qed.
Lemma Forall2_nth {X Y} (P : X -> Y -> Prop) l m k x : Forall2 P l m -> nth_error l k = Some x -> exists y, nth_error m k = Some y /\ P x y.
Proof. intros H; revert k; induction H; intros [|k] E; cbn in *; try discriminate; eauto. injection E as ->; eauto. Qed.
Lemma ext_at h h' a v : ext h h' -> at_ h a = Some v -> exists v', at_ h' a = Some v' /\ sim v v'.
Proof.
  intros (p & s & -> & H) E. unfold at_ in *. destruct (Forall2_nth _ _ _ _ _ H E) as (y & Ey & Hs).
  exists y. split; auto. rewrite nth_error_app1; auto. apply nth_error_Some. congruence.
Qed.
Lemma on_length h a f : length (on h a f) = length h.
Proof. unfold on. destruct (at_ h a); auto. apply set_nth_length. Qed.
Lemma at_new h k t s l : at_ (fst (new h k t s l)) (snd (new h k t s l)) = Some {| n_kind := k; n_ty := t; n_size := s; n_len := l; n_rc := 1 |}.
Proof. unfold at_, new. cbn [fst snd]. rewrite Nat2N.id, nth_error_app2, Nat.sub_diag by lia. reflexivity. Qed.

(** ** Evaluation *)
Section Values.
Context {R : Type}.
Variables (b : bk) (ar : arith R) (st : store R) (late : N -> bool) (callable : bool) (act : N -> bool) (eqv : N -> R -> R -> Prop).
Hypothesis L : laws ar eqv.
Hypothesis SOK : store_ok st.
Hypothesis STY : store_typed st eqv.
Notation ev := (render b ar st late callable act).
Notation evs := (render_all b ar st late callable act).
Notation val_ := (value b ar st late callable act).

Lemma render_sim l env v w : sim v w -> ev l env v = ev l env w.
Proof. intros (A & B & _ & C). unfold render. now rewrite A, B, C. Qed.
Lemma evs_sim l h p : Forall2 sim h p -> forall env, evs l env h = evs l env p.
Proof.
  induction 1 as [|v w h p Hs H IH]; intros env; cbn; [reflexivity|].
  rewrite (render_sim _ _ _ _ Hs). destruct Hs as (_ & -> & _). apply IH.
Qed.
Lemma evs_app l h s : forall env, evs l env (h ++ s) = evs l (evs l env h) s.
Proof. induction h as [|v h IH]; intros env; cbn; [reflexivity|]. apply IH. Qed.
Lemma evs_prefix l h : forall env, exists s, evs l env h = env ++ s /\ length s = length h.
Proof.
  induction h as [|v h IH]; intros env; cbn; [exists []; now rewrite app_nil_r|].
  destruct (IH (env ++ [(n_ty v, ev l env v)])) as (s & E & Ln). eexists. rewrite E, <- app_assoc. split; [reflexivity|].
  cbn. now rewrite Ln.
Qed.
Lemma evs_length l h : length (evs l [] h) = length h.
Proof. destruct (evs_prefix l h []) as (s & -> & E). exact E. Qed.
Lemma value_ext h h' l a v : ext h h' -> at_ h a = Some v -> val_ h' l a = val_ h l a.
Proof.
  intros (p & s & -> & H) E. unfold value, dep. rewrite evs_app, <- (evs_sim _ _ _ H).
  destruct (evs_prefix l s (evs l [] h)) as (u & -> & _). rewrite nth_error_app1; auto.
  rewrite evs_length. apply nth_error_Some. unfold at_ in E. congruence.
Qed.
Lemma value_new l h v : val_ (h ++ [v]) l (N.of_nat (length h)) = ev l (evs l [] h) v.
Proof.
  unfold value, dep. rewrite evs_app. cbn [render_all]. rewrite Nat2N.id, nth_error_app2 by (rewrite evs_length; lia).
  rewrite evs_length, Nat.sub_diag. reflexivity.
Qed.
Lemma evs_ty h l a v : at_ h a = Some v -> dep_ty (evs l [] h) a = n_ty v.
Proof.
  intros E. unfold dep_ty. unfold at_ in E. pose proof E as E2.
  apply nth_error_split in E2 as (p & s & -> & Lp). rewrite evs_app. cbn [render_all].
  destruct (evs_prefix l s (evs l [] p ++ [(n_ty v, ev l (evs l [] p) v)])) as (u & -> & _).
  rewrite <- app_assoc, nth_error_app2 by (rewrite evs_length; lia). rewrite evs_length, Lp, Nat.sub_diag. reflexivity.
Qed.
Lemma value_lit h l a v x : at_ h a = Some v -> n_kind v = KLit x -> val_ h l a = Val (repeat (of_bits ar (n_ty v) x) (N.to_nat (n_len v))).
Proof.
  intros E K. unfold at_ in E. pose proof E as E2. apply nth_error_split in E2 as (p & s & -> & Lp).
  unfold value, dep. rewrite evs_app. cbn [render_all].
  destruct (evs_prefix l s (evs l [] p ++ [(n_ty v, ev l (evs l [] p) v)])) as (u & -> & _).
  rewrite <- app_assoc, nth_error_app2 by (rewrite evs_length; lia). rewrite evs_length, Lp, Nat.sub_diag.
  cbn. unfold render. now rewrite K.
Qed.

(** ** Meaning of a node *)
Definition lane_ok (l : N) : Prop := callable = false \/ act l = true.
Definition den (h : heap) (a : N) (v : vec R) : Prop :=
  exists nd, at_ h a = Some nd /\ n_ty nd = s_ty v /\ n_size nd = s_size v /\ n_len nd = s_len v /\ 1 <= s_size v /\ s_len v < 2 ^ 16 /\
    forall l, lane_ok l -> s_size v = 1 \/ l < s_size v -> exists xs, val_ h l a = Val xs /\ Forall2 (eqv (s_ty v)) xs (pick v l) /\ length xs = N.to_nat (s_len v).
Lemma den_ext h h' a v : ext h h' -> den h a v -> den h' a v.
Proof.
  intros E (nd & A & T & S1 & L1 & G & G2 & V). destruct (ext_at _ _ _ _ E A) as (nd' & A' & (K' & T' & S' & L')).
  exists nd'. repeat (split; [congruence || auto|]). intros l Hl Hs. rewrite (value_ext _ _ _ _ _ E A). auto.
Qed.
Definition inv (h : heap) (regs : list N) (env : list (vec R)) : Prop :=
  length regs = length env /\ forall r a v, nth_error regs r = Some a -> nth_error env r = Some v -> den h a v.
(** What a call has to establish *)
Definition fine (h : heap) (x : option (heap * N)) (y : option (vec R)) : Prop :=
  match x, y with
  | Some x, Some v => ext h (fst x) /\ den (fst x) (snd x) v
  | None, None => True
  | _, _ => False
  end.
Lemma inv_look h regs env r : inv h regs env ->
  match nth_error regs r, nth_error env r with Some a, Some v => den h a v | None, None => True | _, _ => False end.
Proof.
  intros (E & H). destruct (nth_error regs r) as [a|] eqn:Ea, (nth_error env r) as [v|] eqn:Ev; auto.
  - eapply H; eauto.
  - apply nth_error_None in Ev. assert (nth_error regs r <> None) by congruence. apply nth_error_Some in H0. lia.
  - apply nth_error_None in Ea. assert (nth_error env r <> None) by congruence. apply nth_error_Some in H0. lia.
Qed.

(** A new node *)
Lemma fine_new h h' k t s n v :
  ext h h' -> t = s_ty v -> s = s_size v -> n = s_len v -> 1 <= s_size v -> s_len v < 2 ^ 16 ->
  (forall l, lane_ok l -> s_size v = 1 \/ l < s_size v ->
     exists xs, ev l (evs l [] h') {| n_kind := k; n_ty := t; n_size := s; n_len := n; n_rc := 1 |} = Val xs /\ Forall2 (eqv (s_ty v)) xs (pick v l) /\ length xs = N.to_nat (s_len v)) ->
  fine h (Some (new h' k t s n)) (Some v).
Proof.
  intros E -> -> -> G G2 H. split; [apply new_ext; auto|].
  eexists. split; [apply at_new|]. cbn [n_ty n_size n_len]. repeat (split; [auto|]).
  intros l Hl Hs. unfold new. cbn [fst snd]. rewrite value_new. auto.
Qed.
Lemma pick_lane (x : vec R) s l : 1 <= s_size x -> s_size x <= s -> pick x (if s =? 1 then 0 else l) = pick x l.
Proof.
  intros A B. unfold pick. destruct (N.eqb_spec s 1) as [->|Ne]; auto.
  replace (s_size x =? 1) with true by (symmetry; apply N.eqb_eq; lia). reflexivity.
Qed.
Lemma dep_value h l a : dep (evs l [] h) a = val_ h l a.
Proof. reflexivity. Qed.

Lemma Forall2_len {X Y} (P : X -> Y -> Prop) l m : Forall2 P l m -> length l = length m.
Proof. induction 1; cbn; auto. Qed.
Lemma Forall2_same {X} (P : X -> X -> Prop) l : (forall x, P x x) -> Forall2 P l l.
Proof. intros H. induction l; constructor; auto. Qed.
Lemma zip_eqv (e1 e2 e : R -> R -> Prop) (f g : R -> R -> R) l m l' m' : (forall x y x' y', e1 x x' -> e2 y y' -> e (f x y) (g x' y')) ->
  Forall2 e1 l l' -> Forall2 e2 m m' -> Forall2 e (zip f l m) (zip g l' m').
Proof. intros H A; revert m m'. induction A; intros m m' B; inversion B; subst; cbn; constructor; auto. Qed.
Lemma zip3_eqv (e : R -> R -> Prop) (f : R -> R -> R -> R) l m n l' m' n' : (forall x y z x' y' z', e x x' -> e y y' -> e z z' -> e (f x y z) (f x' y' z')) ->
  Forall2 e l l' -> Forall2 e m m' -> Forall2 e n n' -> Forall2 e (zip3 f l m n) (zip3 f l' m' n').
Proof. intros H A; revert m m' n n'. induction A; intros m m' n n' B C; inversion B; subst; inversion C; subst; cbn; constructor; auto. Qed.
Lemma map_eqv (e1 e : R -> R -> Prop) (f g : R -> R) l l' : (forall x x', e1 x x' -> e (f x) (g x')) -> Forall2 e1 l l' -> Forall2 e (map f l) (map g l').
Proof. intros H A. induction A; cbn; constructor; auto. Qed.
Lemma zip_length {X Y Z} (f : X -> Y -> Z) l m : length l = length m -> length (zip f l m) = length l.
Proof. revert m. induction l as [|x l IH]; intros [|y m] E; cbn in *; try discriminate; auto. Qed.
Lemma zip3_length {X Y Z W} (f : X -> Y -> Z -> W) l m n : length l = length m -> length l = length n -> length (zip3 f l m n) = length l.
Proof. revert m n. induction l as [|x l IH]; intros [|y m] [|z n] E F; cbn in *; try discriminate; auto. Qed.
Lemma eqv_list_trans t l m n : Forall2 (eqv t) l m -> Forall2 (eqv t) m n -> Forall2 (eqv t) l n.
Proof. intros A; revert n; induction A; intros n B; inversion B; subst; constructor; auto. eapply (l_trans _ _ L); eauto. Qed.
Lemma eqv_list_sym t l m : Forall2 (eqv t) l m -> Forall2 (eqv t) m l.
Proof. induction 1; constructor; auto. now apply (l_sym _ _ L). Qed.
Lemma eqv_l t x y : eqv t x y -> eqv t x x.
Proof. intros H. eapply (l_trans _ _ L); [exact H|now apply (l_sym _ _ L)]. Qed.
Lemma eqv_r t x y : eqv t x y -> eqv t y y.
Proof. intros H. eapply (l_trans _ _ L); [apply (l_sym _ _ L); exact H|exact H]. Qed.
Lemma eqv_list_r t l m : Forall2 (eqv t) l m -> Forall2 (eqv t) m m.
Proof. intros H. eapply eqv_list_trans; [apply eqv_list_sym; exact H|exact H]. Qed.
Lemma lit_list t x n : Forall2 (eqv t) (repeat (of_bits ar t x) n) (repeat (of_bits ar t x) n).
Proof. induction n; cbn; constructor; auto. apply (l_lit _ _ L). Qed.

(** ** Resizing that changes nothing *)
Lemma resize_same h a v s : at_ h a = Some v -> n_size v = s -> resize h a s = Some (inc h a, a).
Proof. intros E <-. unfold resize. rewrite E. cbn [bind]. now rewrite N.eqb_refl. Qed.
Lemma den_refl h a v l : den h a v -> lane_ok l -> s_size v = 1 \/ l < s_size v -> Forall2 (eqv (s_ty v)) (pick v l) (pick v l).
Proof. intros (nd & _ & _ & _ & _ & _ & _ & V) Hl Hs. destruct (V l Hl Hs) as (xs & _ & F & _). eapply eqv_list_r; eauto. Qed.
(** A node that stands for another vector with the same elements *)
Lemma den_as h a v v' : den h a v -> s_ty v = s_ty v' -> s_size v = s_size v' -> s_len v = s_len v' ->
  (forall l, lane_ok l -> s_size v = 1 \/ l < s_size v -> length (pick v l) = N.to_nat (s_len v) -> Forall2 (eqv (s_ty v)) (pick v l) (pick v' l)) -> den h a v'.
Proof.
  intros (nd & A & T & S1 & L1 & G & G2 & V) ET ES EL H. exists nd. split; [exact A|].
  rewrite <- ET, <- ES, <- EL. repeat (split; [assumption|]). intros l Hl Hs. destruct (V l Hl Hs) as (xs & E & F & Ln).
  exists xs. split; [exact E|]. split; [|exact Ln]. eapply eqv_list_trans; [exact F|]. apply H; auto.
  rewrite <- Ln. symmetry. eapply Forall2_len; eauto.
Qed.
(** Elements of a literal *)
Lemma den_lit h a v nd x l : den h a v -> at_ h a = Some nd -> n_kind nd = KLit x -> lane_ok l -> s_size v = 1 \/ l < s_size v ->
  Forall2 (eqv (s_ty v)) (repeat (of_bits ar (s_ty v) x) (N.to_nat (s_len v))) (pick v l).
Proof.
  intros (nd' & A & T & S1 & L1 & G & G2 & V) A' K Hl Hs. rewrite A in A'. injection A' as ->.
  destruct (V l Hl Hs) as (xs & E & F & Ln). rewrite (value_lit _ _ _ _ _ A K) in E. injection E as <-.
  rewrite <- T, <- L1. rewrite <- T in F. exact F.
Qed.
Lemma zip_repeat_l t (f : R -> R -> R) c n l : length l = n -> Forall2 (eqv t) l l -> (forall x, eqv t x x -> eqv t (f c x) x) -> Forall2 (eqv t) l (zip f (repeat c n) l).
Proof. revert n. induction l as [|x l IH]; intros [|n] E F H; cbn in *; try discriminate; inversion F; subst; constructor; auto. now apply (l_sym _ _ L), H. Qed.
Lemma zip_repeat_r t (f : R -> R -> R) c n l : length l = n -> Forall2 (eqv t) l l -> (forall x, eqv t x x -> eqv t (f x c) x) -> Forall2 (eqv t) l (zip f l (repeat c n)).
Proof. revert n. induction l as [|x l IH]; intros [|n] E F H; cbn in *; try discriminate; inversion F; subst; constructor; auto. now apply (l_sym _ _ L), H. Qed.

Lemma op2_eqv o t x x' y y' : eqv t x x' -> eqv t y y' -> eqv t (op2 ar o t x y) (op2 ar o t x' y').
Proof.
  intros A B. destruct o; cbn; try (now apply (l_arith2 _ _ L)).
  rewrite (l_less _ _ L t x x' y y' A B). destruct (less ar t x' y'); apply (l_lit _ _ L).
Qed.
Lemma fits_max x y : fits x y = true -> 1 <= x -> 1 <= y -> (x = N.max x y \/ x = 1) /\ (y = N.max x y \/ y = 1).
Proof. unfold fits. lia. Qed.

(** ** Binary operations *)
Definition bin_vec (o : op) (x y : vec R) : vec R :=
  {| s_ty := s_ty x; s_size := N.max (s_size x) (s_size y); s_len := s_len x; s_lane := fun l => zip (op2 ar o (s_ty x)) (pick x l) (pick y l) |}.
Lemma bin_pick o x y l : 1 <= s_size x -> 1 <= s_size y -> pick (bin_vec o x y) l = zip (op2 ar o (s_ty x)) (pick x l) (pick y l).
Proof. intros A B. unfold pick at 1. cbn [s_size s_lane bin_vec]. rewrite !pick_lane by lia. reflexivity. Qed.
Lemma code2_ok o t : o <> OtherOp -> (b = LLVM -> o = Min \/ o = Max \/ o = Step -> is_float t = true) ->
  exists f, code2 b ar o t = Some f /\ forall x y, f x y = op2 ar o t x y.
Proof.
  intros H F. destruct o; cbn [code2 op2]; try congruence; try (eexists; split; [reflexivity|reflexivity]).
  all: destruct b; [rewrite F by auto|]; eexists; split; reflexivity.
Qed.
Lemma bin_node h o a c x y nd nd' :
  den h a x -> den h c y -> at_ h a = Some nd -> at_ h c = Some nd' ->
  s_len x = s_len y -> s_ty x = s_ty y -> fits (s_size x) (s_size y) = true ->
  o <> OtherOp -> (b = LLVM -> o = Min \/ o = Max \/ o = Step -> is_float (s_ty x) = true) ->
  fine h (Some (new (inc (inc h a) c) (KBin o a c) (n_ty nd) (N.max (n_size nd) (n_size nd')) (n_len nd))) (Some (bin_vec o x y)).
Proof.
  intros X Y A C EL ET F NO FL.
  assert (E2 : ext h (inc (inc h a) c)) by (eapply ext_trans; apply inc_ext).
  pose proof (den_ext _ _ _ _ E2 X) as X2. pose proof (den_ext _ _ _ _ E2 Y) as Y2.
  destruct X as (n1 & A1 & T1 & S1 & L1 & G1 & U1 & _). destruct Y as (n2 & A2 & T2 & S2 & L2 & G2 & U2 & _).
  rewrite A in A1. injection A1 as <-. rewrite C in A2. injection A2 as <-.
  destruct (fits_max _ _ F G1 G2) as (M1 & M2).
  apply fine_new; cbn [s_ty s_size s_len bin_vec]; try congruence; try lia.
  intros l Hl Hs.
  destruct X2 as (m1 & B1 & _ & _ & _ & _ & _ & V1). destruct Y2 as (m2 & B2 & _ & _ & _ & _ & _ & V2).
  destruct (V1 l Hl ltac:(lia)) as (xs & Ex & Fx & Lx). destruct (V2 l Hl ltac:(lia)) as (ys & Ey & Fy & Ly).
  unfold render. cbn [n_kind n_ty n_len]. rewrite !dep_value, Ex, Ey. cbn [obind].
  rewrite <- T1 in FL. destruct (code2_ok o (n_ty nd) NO FL) as (f & -> & Hf).
  eexists. split; [reflexivity|]. split.
  - rewrite bin_pick by lia. rewrite <- ET in Fy. eapply zip_eqv; [|exact Fx|exact Fy]. intros. rewrite Hf, T1. now apply op2_eqv.
  - rewrite zip_length; congruence.
Qed.
Lemma binary_ok h o a c x y :
  den h a x -> den h c y -> narrow h [a; c] -> o <> OtherOp ->
  (b = LLVM -> o = Min \/ o = Max \/ o = Step -> is_float (s_ty x) = true) ->
  fine h (binary h o a c) (if (s_len x =? s_len y) && (s_ty x =? s_ty y) && fits (s_size x) (s_size y) then Some (bin_vec o x y) else None).
Proof.
  intros X Y NA NO FL. pose proof X as X0. pose proof Y as Y0.
  destruct X as (n1 & A1 & T1 & S1 & L1 & G1 & U1 & V1). destruct Y as (n2 & A2 & T2 & S2 & L2 & G2 & U2 & V2).
  unfold binary. rewrite A1, A2. cbn [bind]. rewrite L1, L2, T1, T2.
  destruct (N.eqb_spec (s_len x) (s_len y)) as [EL|]; [|exact Logic.I]. cbn [negb andb].
  destruct (N.eqb_spec (s_ty x) (s_ty y)) as [ET|]; [|exact Logic.I]. cbn [negb andb].
  replace ((n_size n1 =? n_size n2) || (n_size n2 =? 1) || (n_size n1 =? 1)) with (fits (s_size x) (s_size y))
    by (unfold fits; rewrite S1, S2; destruct (s_size x =? s_size y), (s_size x =? 1), (s_size y =? 1); reflexivity).
  destruct (fits (s_size x) (s_size y)) eqn:F; [|exact Logic.I]. cbn [negb].
  destruct (fits_max _ _ F G1 G2) as (M1 & M2).
  pose proof (bin_node _ o _ _ _ _ _ _ X0 Y0 A1 A2 EL ET F NO FL) as ND. rewrite T1, L1 in ND.
  (* a literal operand is the neutral element *)
  assert (LEFT : forall z, n_kind n1 = KLit z -> (forall u, eqv (s_ty x) u u -> eqv (s_ty x) (op2 ar o (s_ty x) (of_bits ar (s_ty x) z) u) u) ->
            fine h (resize h c (N.max (n_size n1) (n_size n2))) (Some (bin_vec o x y))).
  { intros z Kz Hz. assert (n_size n1 <= n_size n2) by (eapply (NA a c); eauto; [now left|right; now left|now exists z]).
    rewrite (resize_same _ _ _ _ A2) by lia. split; [apply inc_ext|]. cbn [fst snd].
    apply (den_as _ _ y); [eapply den_ext; [apply inc_ext|exact Y0]|cbn; congruence|cbn; lia|cbn; congruence|].
    intros l Hl Hs Ln. rewrite bin_pick by lia.
    pose proof (den_refl _ _ _ l Y0 Hl Hs) as RY. rewrite <- ET in *.
    eapply eqv_list_trans; [|eapply (zip_eqv (eqv (s_ty x)) (eqv (s_ty x)) (eqv (s_ty x)) (op2 ar o (s_ty x)) (op2 ar o (s_ty x))); [intros; now apply op2_eqv|apply (den_lit _ _ _ _ _ l X0 A1 Kz Hl ltac:(lia))|exact RY]].
    apply zip_repeat_l; [congruence|exact RY|exact Hz]. }
  assert (RIGHT : forall z, n_kind n2 = KLit z -> (forall u, eqv (s_ty x) u u -> eqv (s_ty x) (op2 ar o (s_ty x) u (of_bits ar (s_ty x) z)) u) ->
            fine h (resize h a (N.max (n_size n1) (n_size n2))) (Some (bin_vec o x y))).
  { intros z Kz Hz. assert (n_size n2 <= n_size n1) by (eapply (NA c a); eauto; [right; now left|now left|now exists z]).
    rewrite (resize_same _ _ _ _ A1) by lia. split; [apply inc_ext|]. cbn [fst snd].
    apply (den_as _ _ x); [eapply den_ext; [apply inc_ext|exact X0]|cbn; congruence|cbn; lia|cbn; congruence|].
    intros l Hl Hs Ln. rewrite bin_pick by lia.
    pose proof (den_refl _ _ _ l X0 Hl Hs) as RX. pose proof (den_lit _ _ _ _ _ l Y0 A2 Kz Hl ltac:(lia)) as LY. rewrite <- ET in LY.
    eapply eqv_list_trans; [|eapply (zip_eqv (eqv (s_ty x)) (eqv (s_ty x)) (eqv (s_ty x)) (op2 ar o (s_ty x)) (op2 ar o (s_ty x))); [intros; now apply op2_eqv|exact RX|exact LY]].
    apply zip_repeat_r; [congruence|exact RX|exact Hz]. }
  destruct o; try exact ND.
  - unfold is_zero. destruct (n_kind n1) as [| z | | | | | | | ] eqn:K1; try destruct (zero_bits (n_ty n1) z) eqn:Z1;
      try (apply (LEFT z eq_refl); intros ? Hu; rewrite T1 in Z1; exact (proj1 (l_add0 _ _ L _ _ _ Z1 Hu)));
      (destruct (n_kind n2) as [| q | | | | | | | ] eqn:K2; try destruct (zero_bits (n_ty n2) q) eqn:Z2; try exact ND;
       apply (RIGHT q eq_refl); intros ? Hu; rewrite T2, <- ET in Z2; exact (proj2 (l_add0 _ _ L _ _ _ Z2 Hu))).
  - unfold is_one. destruct (n_kind n1) as [| z | | | | | | | ] eqn:K1; try destruct (N.eqb_spec z (one_bits (n_ty n1))) as [Z1|];
      try (apply (LEFT z eq_refl); intros ? Hu; rewrite Z1, T1; exact (proj1 (l_mul1 _ _ L _ _ Hu)));
      (destruct (n_kind n2) as [| q | | | | | | | ] eqn:K2; try destruct (N.eqb_spec q (one_bits (n_ty n2))) as [Z2|]; try exact ND;
       apply (RIGHT q eq_refl); intros ? Hu; rewrite Z2, T2, <- ET; exact (proj2 (l_mul1 _ _ L _ _ Hu))).
Qed.

(** ** Fused multiply-add *)
Definition fma_vec (x y z : vec R) : vec R :=
  {| s_ty := s_ty x; s_size := N.max (N.max (s_size x) (s_size y)) (s_size z); s_len := s_len x;
     s_lane := fun l => zip3 (fused ar (s_ty x)) (pick x l) (pick y l) (pick z l) |}.
Lemma fma_pick x y z l : 1 <= s_size x -> 1 <= s_size y -> 1 <= s_size z -> pick (fma_vec x y z) l = zip3 (fused ar (s_ty x)) (pick x l) (pick y l) (pick z l).
Proof. intros A B C. unfold pick at 1. cbn [s_size s_lane fma_vec]. rewrite !pick_lane by lia. reflexivity. Qed.
Lemma resized_ok h r v s : fine h r (Some v) -> s_size v = s -> fine h (resized r s) (Some v).
Proof.
  intros H <-. destruct r as [[h' a]|]; [|destruct H]. destruct H as (E & D). cbn [fst snd] in *.
  unfold resized. cbn [bind fst snd]. destruct D as (nd & A & T & S1 & D).
  rewrite (resize_same _ _ _ _ A S1). cbn [bind fst snd].
  assert (E2 : ext h' (dec (inc h' a) a)) by (eapply ext_trans; [apply inc_ext|apply dec_ext]).
  split; [eapply ext_trans; eauto|]. eapply den_ext; [exact E2|]. exists nd; auto.
Qed.
Lemma fine_as h r v v' : fine h r (Some v) -> s_ty v = s_ty v' -> s_size v = s_size v' -> s_len v = s_len v' ->
  (forall l, lane_ok l -> s_size v = 1 \/ l < s_size v -> Forall2 (eqv (s_ty v)) (pick v l) (pick v' l)) -> fine h r (Some v').
Proof. intros H. destruct r as [x|]; [|destruct H]. destruct H as (E & D). intros. split; auto. eapply den_as; eauto. Qed.
Lemma narrow_sub h l m : narrow h l -> incl m l -> narrow h m.
Proof. intros H I a c x y A C. apply H; auto. Qed.
Lemma zip3_1 t (f : R -> R -> R -> R) c n l m : length l = n -> length m = n -> Forall2 (eqv t) l l -> Forall2 (eqv t) m m ->
  forall g : R -> R -> R, (forall x y, eqv t x x -> eqv t y y -> eqv t (f c x y) (g x y)) -> Forall2 (eqv t) (zip3 f (repeat c n) l m) (zip g l m).
Proof. intros A B F G g H. revert n m A B G. induction l as [|x l IH]; intros [|n] [|y m] A B G; cbn in *; try discriminate; inversion F; subst; inversion G; subst; constructor; auto. Qed.
Lemma zip3_2 t (f : R -> R -> R -> R) c n l m : length l = n -> length m = n -> Forall2 (eqv t) l l -> Forall2 (eqv t) m m ->
  forall g : R -> R -> R, (forall x y, eqv t x x -> eqv t y y -> eqv t (f x c y) (g x y)) -> Forall2 (eqv t) (zip3 f l (repeat c n) m) (zip g l m).
Proof. intros A B F G g H. revert n m A B G. induction l as [|x l IH]; intros [|n] [|y m] A B G; cbn in *; try discriminate; inversion F; subst; inversion G; subst; constructor; auto. Qed.
Lemma zip3_3 t (f : R -> R -> R -> R) c n l m : length l = n -> length m = n -> Forall2 (eqv t) l l -> Forall2 (eqv t) m m ->
  forall g : R -> R -> R, (forall x y, eqv t x x -> eqv t y y -> eqv t (f x y c) (g x y)) -> Forall2 (eqv t) (zip3 f l m (repeat c n)) (zip g l m).
Proof. intros A B F G g H. revert n m A B G. induction l as [|x l IH]; intros [|n] [|y m] A B G; cbn in *; try discriminate; inversion F; subst; inversion G; subst; constructor; auto. Qed.
Lemma pick_length h a v l : den h a v -> lane_ok l -> s_size v = 1 \/ l < s_size v -> length (pick v l) = N.to_nat (s_len v).
Proof. intros (nd & _ & _ & _ & _ & _ & _ & V) Hl Hs. destruct (V l Hl Hs) as (xs & _ & F & Ln). rewrite <- (Forall2_len _ _ _ F). exact Ln. Qed.
Lemma ternary_ok h a c d x y z :
  den h a x -> den h c y -> den h d z -> narrow h [a; c; d] -> is_float (s_ty x) = true ->
  fine h (ternary h a c d) (if (s_len x =? s_len y) && (s_len x =? s_len z) && (s_ty x =? s_ty y) && (s_ty x =? s_ty z)
         && fits (s_size x) (s_size y) && fits (s_size x) (s_size z) && fits (s_size y) (s_size z) then Some (fma_vec x y z) else None).
Proof.
  intros X Y Z NA FL. pose proof X as X0. pose proof Y as Y0. pose proof Z as Z0.
  destruct X as (n1 & A1 & T1 & S1 & L1 & G1 & U1 & V1). destruct Y as (n2 & A2 & T2 & S2 & L2 & G2 & U2 & V2). destruct Z as (n3 & A3 & T3 & S3 & L3 & G3 & U3 & V3).
  unfold ternary. rewrite A1, A2, A3. cbn [bind]. rewrite L1, L2, L3, T1, T2, T3, S1, S2, S3.
  destruct (N.eqb_spec (s_len x) (s_len y)) as [EL|]; [|exact Logic.I].
  destruct (N.eqb_spec (s_len x) (s_len z)) as [EL2|]; [|exact Logic.I]. cbn [negb andb orb].
  destruct (N.eqb_spec (s_ty x) (s_ty y)) as [ET|]; [|exact Logic.I].
  destruct (N.eqb_spec (s_ty x) (s_ty z)) as [ET2|]; [|exact Logic.I]. cbn [negb andb orb].
  set (m := N.max (N.max (s_size x) (s_size y)) (s_size z)).
  destruct (negb ((s_size x =? m) || (s_size x =? 1)) || negb ((s_size y =? m) || (s_size y =? 1)) || negb ((s_size z =? m) || (s_size z =? 1))) eqn:F.
  { replace (fits (s_size x) (s_size y) && fits (s_size x) (s_size z) && fits (s_size y) (s_size z)) with false; [exact Logic.I|].
    unfold fits, m in *. lia. }
  replace (fits (s_size x) (s_size y) && fits (s_size x) (s_size z) && fits (s_size y) (s_size z)) with true by (unfold fits, m in *; lia).
  assert (M : (s_size x = m \/ s_size x = 1) /\ (s_size y = m \/ s_size y = 1) /\ (s_size z = m \/ s_size z = 1)) by lia.
  assert (FYZ : fits (s_size y) (s_size z) = true) by (unfold fits; lia).
  assert (FXZ : fits (s_size x) (s_size z) = true) by (unfold fits; lia).
  assert (FXY : fits (s_size x) (s_size y) = true) by (unfold fits; lia).
  assert (LM : forall l, s_size (fma_vec x y z) = 1 \/ l < s_size (fma_vec x y z) ->
             (s_size x = 1 \/ l < s_size x) /\ (s_size y = 1 \/ l < s_size y) /\ (s_size z = 1 \/ l < s_size z)).
  { intros l. cbn [s_size fma_vec]. fold m. intros [H|H].
    - assert (N.max (N.max (s_size x) (s_size y)) (s_size z) = 1) by exact H. lia.
    - assert (l < m) by exact H. lia. }
  unfold is_one. destruct (match n_kind n1 with KLit b0 => b0 =? one_bits (n_ty n1) | _ => false end) eqn:O1.
  { destruct (n_kind n1) as [| q | | | | | | | ] eqn:K1; try discriminate. apply N.eqb_eq in O1. subst q. rewrite T1 in K1.
    assert (n_size n1 <= n_size n2) by (eapply (NA a c); eauto; [now left|right; now left|eexists; eauto]).
    pose proof (binary_ok h Add c d y z Y0 Z0 ltac:(eapply narrow_sub; [exact NA|]; intros q [<-|[<-|[]]]; cbn; auto) ltac:(discriminate) ltac:(intros _ [?|[?|?]]; discriminate)) as B.
    replace (s_len y =? s_len z) with true in B by (symmetry; apply N.eqb_eq; congruence).
    replace (s_ty y =? s_ty z) with true in B by (symmetry; apply N.eqb_eq; congruence). rewrite FYZ in B. cbn [andb] in B.
    apply (fine_as _ _ (bin_vec Add y z)); [apply resized_ok; [exact B|cbn [s_size bin_vec]; lia]|cbn; congruence|cbn; lia|cbn; congruence|].
    intros l Hl Hs. assert (Hs2 : s_size (fma_vec x y z) = 1 \/ l < s_size (fma_vec x y z)) by (cbn [s_size bin_vec fma_vec] in *; lia).
    destruct (LM l Hs2) as (P1 & P2 & P3). rewrite bin_pick, fma_pick by lia.
    pose proof (den_refl _ _ _ l X0 Hl P1) as RX. pose proof (den_refl _ _ _ l Y0 Hl P2) as RY. pose proof (den_refl _ _ _ l Z0 Hl P3) as RZ. rewrite <- ET in RY. rewrite <- ET2 in RZ. cbn [s_ty bin_vec]. rewrite <- ?ET.
    apply eqv_list_sym. eapply eqv_list_trans; [apply (zip3_eqv _ (fused ar (s_ty x))); [intros; now apply (l_fused _ _ L)|apply eqv_list_sym, (den_lit _ _ _ _ _ l X0 A1 K1 Hl P1)|exact RY|exact RZ]|].
    apply zip3_1; [rewrite (pick_length _ _ _ _ Y0 Hl P2); congruence|rewrite (pick_length _ _ _ _ Z0 Hl P3); congruence|exact RY|exact RZ|].
    intros u v Hu Hv. exact (proj1 (l_fma1 _ _ L _ _ _ FL Hu Hv)). }
  destruct (match n_kind n2 with KLit b0 => b0 =? one_bits (n_ty n2) | _ => false end) eqn:O2.
  { destruct (n_kind n2) as [| q | | | | | | | ] eqn:K2; try discriminate. apply N.eqb_eq in O2. subst q. rewrite T2 in K2.
    assert (n_size n2 <= n_size n1) by (eapply (NA c a); eauto; [right; now left|now left|eexists; eauto]).
    pose proof (binary_ok h Add a d x z X0 Z0 ltac:(eapply narrow_sub; [exact NA|]; intros q [<-|[<-|[]]]; cbn; auto) ltac:(discriminate) ltac:(intros _ [?|[?|?]]; discriminate)) as B.
    replace (s_len x =? s_len z) with true in B by (symmetry; apply N.eqb_eq; congruence).
    replace (s_ty x =? s_ty z) with true in B by (symmetry; apply N.eqb_eq; congruence). rewrite FXZ in B. cbn [andb] in B.
    apply (fine_as _ _ (bin_vec Add x z)); [apply resized_ok; [exact B|cbn [s_size bin_vec]; lia]|cbn; congruence|cbn; lia|cbn; congruence|].
    intros l Hl Hs. assert (Hs2 : s_size (fma_vec x y z) = 1 \/ l < s_size (fma_vec x y z)) by (cbn [s_size bin_vec fma_vec] in *; lia).
    destruct (LM l Hs2) as (P1 & P2 & P3). rewrite bin_pick, fma_pick by lia.
    pose proof (den_refl _ _ _ l X0 Hl P1) as RX. pose proof (den_refl _ _ _ l Y0 Hl P2) as RY. pose proof (den_refl _ _ _ l Z0 Hl P3) as RZ. rewrite <- ET in RY. rewrite <- ET2 in RZ. cbn [s_ty bin_vec]. rewrite <- ?ET.
    apply eqv_list_sym. eapply eqv_list_trans; [apply (zip3_eqv _ (fused ar (s_ty x))); [intros; now apply (l_fused _ _ L)|exact RX|apply eqv_list_sym; rewrite ET; exact (den_lit _ _ _ _ _ l Y0 A2 K2 Hl P2)|exact RZ]|].
    rewrite <- ET. apply zip3_2; [rewrite (pick_length _ _ _ _ X0 Hl P1); congruence|rewrite (pick_length _ _ _ _ Z0 Hl P3); congruence|exact RX|exact RZ|].
    intros u v Hu Hv. exact (proj2 (l_fma1 _ _ L _ _ _ FL Hu Hv)). }
  destruct (is_zero n3) eqn:O3.
  { unfold is_zero in O3. destruct (n_kind n3) as [| q | | | | | | | ] eqn:K3; try discriminate. rewrite T3 in O3.
    assert (n_size n3 <= n_size n1) by (eapply (NA d a); eauto; [right; right; now left|now left|eexists; eauto]).
    pose proof (binary_ok h Mul a c x y X0 Y0 ltac:(eapply narrow_sub; [exact NA|]; intros w [<-|[<-|[]]]; cbn; auto) ltac:(discriminate) ltac:(intros _ [?|[?|?]]; discriminate)) as B.
    replace (s_len x =? s_len y) with true in B by (symmetry; apply N.eqb_eq; congruence).
    replace (s_ty x =? s_ty y) with true in B by (symmetry; apply N.eqb_eq; congruence). rewrite FXY in B. cbn [andb] in B.
    apply (fine_as _ _ (bin_vec Mul x y)); [apply resized_ok; [exact B|cbn [s_size bin_vec]; lia]|cbn; congruence|cbn; lia|cbn; congruence|].
    intros l Hl Hs. assert (Hs2 : s_size (fma_vec x y z) = 1 \/ l < s_size (fma_vec x y z)) by (cbn [s_size bin_vec fma_vec] in *; lia).
    destruct (LM l Hs2) as (P1 & P2 & P3). rewrite bin_pick, fma_pick by lia.
    pose proof (den_refl _ _ _ l X0 Hl P1) as RX. pose proof (den_refl _ _ _ l Y0 Hl P2) as RY. pose proof (den_refl _ _ _ l Z0 Hl P3) as RZ. rewrite <- ET in RY. rewrite <- ET2 in RZ. cbn [s_ty bin_vec]. rewrite <- ?ET.
    apply eqv_list_sym. eapply eqv_list_trans; [apply (zip3_eqv _ (fused ar (s_ty x))); [intros; now apply (l_fused _ _ L)|exact RX|exact RY|apply eqv_list_sym; rewrite ET2; exact (den_lit _ _ _ _ _ l Z0 A3 K3 Hl P3)]|].
    rewrite <- ET2. apply zip3_3; [rewrite (pick_length _ _ _ _ X0 Hl P1); congruence|rewrite (pick_length _ _ _ _ Y0 Hl P2); congruence|exact RX|exact RY|].
    intros u v Hu Hv. rewrite <- ET2 in O3. exact (l_fma0 _ _ L _ _ _ _ FL O3 Hu Hv). }
  assert (E2 : ext h (inc (inc (inc h a) c) d)) by (eapply ext_trans; [eapply ext_trans; apply inc_ext|apply inc_ext]).
  destruct (den_ext _ _ _ _ E2 X0) as (m1 & B1 & _ & _ & _ & _ & _ & W1). destruct (den_ext _ _ _ _ E2 Y0) as (m2 & B2 & _ & _ & _ & _ & _ & W2).
  destruct (den_ext _ _ _ _ E2 Z0) as (m3 & B3 & _ & _ & _ & _ & _ & W3).
  apply fine_new; cbn [s_ty s_size s_len fma_vec]; try congruence; try lia.
  intros l Hl Hs. destruct (LM l Hs) as (P1 & P2 & P3).
  destruct (W1 l Hl P1) as (xs & Ex & Fx & Lx). destruct (W2 l Hl P2) as (ys & Ey & Fy & Ly). destruct (W3 l Hl P3) as (zs & Ez & Fz & Lz).
  unfold render. cbn [n_kind n_ty n_len]. rewrite !dep_value, Ex, Ey, Ez. cbn [obind]. rewrite FL.
  eexists. split; [reflexivity|]. split.
  - rewrite fma_pick by lia. rewrite <- ET in Fy. rewrite <- ET2 in Fz. apply zip3_eqv; auto. intros; now apply (l_fused _ _ L).
  - rewrite zip3_length; congruence.
Qed.

(** ** Memory *)
Lemma contents_now i v : st i = Some v -> clean st i -> contents ar late i v = now ar v.
Proof. intros E C. unfold contents, now. rewrite (C v E). reflexivity. Qed.
Lemma now_length i v : st i = Some v -> N.of_nat (length (now ar v)) = a_size v.
Proof.
  intros E. destruct (SOK i v E) as (_ & H). unfold now. destruct (a_lit v); [rewrite repeat_length; lia|].
  destruct (H eq_refl) as (A & B). destruct (a_new v) as [l|] eqn:N; auto.
Qed.
Lemma element_typed i v k : st i = Some v -> k < a_size v -> eqv (a_ty v) (element ar st i k) (element ar st i k).
Proof.
  intros E H. unfold element. rewrite E. pose proof (now_length _ _ E) as Ln.
  assert (I : In (nth (N.to_nat k) (now ar v) (of_bits ar 0 0)) (now ar v)) by (apply nth_In; lia). revert I. generalize (nth (N.to_nat k) (now ar v) (of_bits ar 0 0)) as x. intros x I.
  unfold now in I. destruct (a_lit v) as [q|] eqn:Lt; [apply repeat_spec in I as ->; apply (l_lit _ _ L)|].
  apply (STY i v x E Lt). destruct (a_new v) as [l|]; [right; eauto|now left].
Qed.
Lemma at_lane_typed i v l : st i = Some v -> a_size v = 1 \/ l < a_size v -> eqv (a_ty v) (at_lane ar st i l) (at_lane ar st i l).
Proof. intros E H. unfold at_lane. rewrite E. apply element_typed; auto. destruct (N.eqb_spec (a_size v) 1); lia. Qed.
Lemma same_list t (l : list R) : (forall x, In x l -> eqv t x x) -> Forall2 (eqv t) l l.
Proof. induction l; intros H; constructor; [apply H; now left|apply IHl; intros; apply H; now right]. Qed.
Lemma elem_ok l t i k : lane_ok l -> clean st i -> k < elements st i -> elem b ar st late callable act l t i (Z.of_N k) = Val (element ar st i k).
Proof.
  intros Hl C K. unfold elem, element, elements in *. destruct (st i) as [v|] eqn:E; [|lia].
  assert (G : get (contents ar late i v) (Z.of_N k) = Val (nth (N.to_nat k) (now ar v) (of_bits ar 0 0))).
  { rewrite (contents_now _ _ E C). apply get_nth. rewrite (now_length _ _ E). exact K. }
  destruct b; [|exact G]. replace (callable && negb (act l)) with false; [exact G|].
  destruct Hl as [->| ->]; cbn; auto. now destruct callable.
Qed.
Lemma reg_ok l i v : st i = Some v -> clean st i -> a_size v = 1 \/ l < a_size v -> reg ar st late l i = Val (at_lane ar st i l).
Proof.
  intros E C H. unfold reg, at_lane, element. rewrite E. pose proof (now_length _ _ E) as Ln.
  destruct (a_lit v) as [x|] eqn:Lt.
  - f_equal. unfold now in *. rewrite Lt in *. rewrite repeat_length in Ln.
    assert (forall k, (k < N.to_nat (a_size v))%nat -> of_bits ar (a_ty v) x = nth k (repeat (of_bits ar (a_ty v) x) (N.to_nat (a_size v))) (of_bits ar 0 0)).
    { intros k Hk. symmetry. rewrite nth_indep with (d' := of_bits ar (a_ty v) x) by (rewrite repeat_length; lia). apply nth_repeat. }
    destruct (SOK i v E) as (P & _). apply H0. destruct (N.eqb_spec (a_size v) 1); lia.
  - rewrite (contents_now _ _ E C). destruct (SOK i v E) as (P & _).
    destruct (N.eqb_spec (a_size v) 1) as [S1|S1].
    + apply (get_nth (of_bits ar 0 0) _ 0). lia.
    + apply (get_nth (of_bits ar 0 0)). lia.
Qed.

(** ** Packing, literals, loads, casts *)
Lemma inputs_ok ty l : forall s,
  inputs st ty l s = if forallb (fun k => match st k with Some u => a_ty u =? ty | None => false end) l then Some (N.max s (sizes st l)) else None.
Proof.
  induction l as [|i l IH]; intros s; cbn; [f_equal; lia|].
  destruct (st i) as [v|]; cbn; auto. destruct (a_ty v =? ty); cbn; auto. rewrite IH.
  destruct (forallb _ l); auto. f_equal. lia.
Qed.
Lemma literal_ok h t x s n : n < 2 ^ 16 -> fine h (literal h t x s n) (if s =? 0 then None else Some {| s_ty := t; s_size := s; s_len := n; s_lane := fun _ => repeat (of_bits ar t x) (N.to_nat n) |}).
Proof.
  intros H. unfold literal. destruct (N.eqb_spec s 0); [exact Logic.I|]. rewrite u16_small by exact H.
  apply fine_new; cbn [s_ty s_size s_len]; auto using ext_refl; [lia|].
  intros l _ _. eexists. split; [reflexivity|]. cbn [s_lane pick]. unfold pick. cbn [s_lane]. split; [apply lit_list|now rewrite repeat_length].
Qed.
Lemma sizes_in l i v : In i l -> st i = Some v -> a_size v <= sizes st l.
Proof. induction l as [|j l IH]; intros H E; [destruct H|]. cbn. destruct H as [->|H]; [rewrite E; lia|]. specialize (IH H E). lia. Qed.
Lemma pack_ok h l env regs : good_call b st h regs (CPack l) -> fine h (pack st h l) (meaning b ar st env (CPack l)).
Proof.
  intros G. cbn [good_call] in G. unfold pack, meaning. destruct l as [|i l']; [exact Logic.I|]. set (l := i :: l') in *.
  change 0xFFFF with 65535. destruct (65535 <? N.of_nat (length l)) eqn:Sz; [exact Logic.I|].
  destruct (st i) as [v|] eqn:Ei; [|exact Logic.I]. cbn [bind]. rewrite inputs_ok.
  set (same := forallb _ l). destruct same eqn:Sm; [|exact Logic.I]. cbn [bind]. unfold same in Sm. rewrite forallb_forall in Sm.
  assert (Iv : a_size v <= sizes st l) by (eapply sizes_in; [now left|exact Ei]).
  destruct (SOK i v Ei) as (Pv & _). rewrite N.max_r by exact Iv.
  assert (PACK : fine h (Some (new h (KPack l) (a_ty v) (sizes st l) (u16 (N.of_nat (length l)))))
                   (Some {| s_ty := a_ty v; s_size := sizes st l; s_len := N.of_nat (length l); s_lane := fun n => map (fun k => at_lane ar st k n) l |})).
  { rewrite u16_small by lia. apply fine_new; cbn [s_ty s_size s_len]; auto using ext_refl; try lia.
    intros n Hl Hs. exists (map (fun k => at_lane ar st k n) l). split; [|split].
    - unfold render. cbn [n_kind]. apply each_ok. intros k Hk. destruct (G k Hk) as (C & Wd). specialize (Sm k Hk).
      destruct (st k) as [u|] eqn:Ek; [|discriminate]. apply (reg_ok _ _ _ Ek C). unfold elements in Wd. rewrite Ek in Wd. lia.
    - assert (SAME : Forall2 (eqv (a_ty v)) (map (fun k => at_lane ar st k n) l) (map (fun k => at_lane ar st k n) l)).
      { apply same_list. intros x Hx. apply in_map_iff in Hx as (k & <- & Hk). destruct (G k Hk) as (_ & Wd). specialize (Sm k Hk). unfold elements in Wd.
        destruct (st k) as [u|] eqn:Ek; [|discriminate]. apply N.eqb_eq in Sm. rewrite <- Sm. apply at_lane_typed; auto. lia. }
      unfold pick. cbn [s_lane s_size s_ty]. destruct (N.eqb_spec (sizes st l) 1) as [S1|S1]; [|exact SAME].
      replace (map (fun k => at_lane ar st k 0) l) with (map (fun k => at_lane ar st k n) l); [exact SAME|].
      apply map_ext_in. intros k Hk. destruct (G k Hk) as (_ & Wd). specialize (Sm k Hk). unfold at_lane. unfold elements in Wd.
      destruct (st k) as [u|] eqn:Ek; [|reflexivity]. replace (a_size u =? 1) with true by (symmetry; apply N.eqb_eq; lia). reflexivity.
    - rewrite map_length. lia. }
  destruct (a_lit v) as [x|] eqn:Lt; [|exact PACK]. destruct (all_lit st x l) eqn:AL; [|exact PACK].
  pose proof (literal_ok h (a_ty v) x (sizes st l) (N.of_nat (length l)) ltac:(lia)) as LO.
  replace (sizes st l =? 0) with false in LO by (symmetry; apply N.eqb_neq; lia).
  eapply fine_as; [exact LO| | | |]; try reflexivity.
  intros n Hl Hs. unfold pick. cbn [s_lane s_size] in *.
  set (n' := if sizes st l =? 1 then 0 else n). rewrite Nat2N.id. unfold all_lit in AL. rewrite forallb_forall in AL.
  replace (map (fun k => at_lane ar st k n') l) with (repeat (of_bits ar (a_ty v) x) (length l)); [apply lit_list|].
  symmetry. assert (EQ : forall k, In k l -> at_lane ar st k n' = of_bits ar (a_ty v) x).
  { intros k Hk. specialize (AL k Hk). specialize (Sm k Hk). destruct (G k Hk) as (C & Wd). unfold elements in Wd.
    destruct (st k) as [u|] eqn:Ek; [|discriminate]. destruct (a_lit u) as [q|] eqn:Lu; [|discriminate].
    apply N.eqb_eq in AL, Sm. subst q. assert (Rg : reg ar st late n' k = Val (at_lane ar st k n')).
    { apply (reg_ok _ _ _ Ek C). unfold n'. destruct (N.eqb_spec (sizes st l) 1); lia. }
    unfold reg in Rg. rewrite Ek, Lu in Rg. injection Rg as <-. now rewrite Sm. }
  clear -EQ. revert EQ. generalize l as m. induction m as [|k m IH]; intros EQ; cbn; [reflexivity|].
  rewrite EQ by now left. f_equal. apply IH. intros; apply EQ; now right.
Qed.
Lemma load_ok h buf off len env regs : good_call b st h regs (CLoad buf off len) -> fine h (load st h buf off len) (meaning b ar st env (CLoad buf off len)).
Proof.
  cbn [good_call]. intros (C & Ln & Bd & LB). unfold load, meaning. destruct (st buf) as [v|] eqn:E; [|exact Logic.I]. cbn [bind].
  rewrite u16_small by exact Ln. apply fine_new; cbn [s_ty s_size s_len]; auto using ext_refl; [lia|].
  intros l Hl Hs. exists (map (fun i => element ar st buf (off + i)) (upto len)). split; [|split].
  - unfold render. cbn [n_kind n_len]. apply each_ok. intros i Hi. apply upto_in in Hi.
    assert (ES : elements st buf = a_size v) by (unfold elements; now rewrite E). destruct (SOK _ _ E) as (P & _).
    rewrite u32_small by lia. rewrite <- (elem_ok l (a_ty v) buf (off + i) Hl C) by lia. f_equal. destruct b; auto. apply s32_small. specialize (LB eq_refl). lia.
  - unfold pick. cbn [s_lane s_ty]. apply same_list. intros x Hx. apply in_map_iff in Hx as (k & <- & Hk). apply upto_in in Hk. apply element_typed; auto. unfold elements in Bd. rewrite E in Bd. lia.
  - now rewrite map_length, upto_length.
Qed.
Lemma unary_ok h u a x : den h a x -> b = Metal -> u <> OtherUop ->
  fine h (unary h u a) (Some {| s_ty := s_ty x; s_size := s_size x; s_len := s_len x; s_lane := fun l => map (arith1 ar u (s_ty x)) (s_lane x l) |}).
Proof.
  intros X BM NU. pose proof (inc_ext h a) as E. destruct (den_ext _ _ _ _ E X) as (m & _ & _ & _ & _ & _ & _ & W).
  destruct X as (nd & A & T & S1 & L1 & G & U & _). unfold unary. rewrite A. cbn [bind].
  apply fine_new; cbn [s_ty s_size s_len]; auto; try lia.
  intros l Hl Hs. destruct (W l Hl Hs) as (xs & Ex & Fx & Lx). exists (map (arith1 ar u (n_ty nd)) xs). split; [|split].
  - unfold render. cbn [n_kind n_ty]. rewrite dep_value, Ex. cbn [obind]. rewrite BM. destruct u; congruence || reflexivity.
  - unfold pick in *. cbn [s_lane s_size]. rewrite T. eapply map_eqv; [|exact Fx]. intros; now apply (l_arith1 _ _ L).
  - now rewrite map_length.
Qed.
Lemma cast_ok h a x t : den h a x -> (b = LLVM -> is_float t = true /\ is_float (s_ty x) = true) ->
  fine h (cast h a t) (Some {| s_ty := t; s_size := s_size x; s_len := s_len x; s_lane := fun l => map (conv ar (s_ty x) t) (s_lane x l) |}).
Proof.
  intros X FL. pose proof (inc_ext h a) as E. pose proof (den_ext _ _ _ _ E X) as X2. pose proof X2 as (m & Bm & _ & _ & _ & _ & _ & W).
  pose proof X as (nd & A & T & S1 & L1 & G & U & _). unfold cast. rewrite A. cbn [bind].
  destruct (N.eqb_spec (n_ty nd) t) as [Et|Ne].
  - split; [exact E|]. cbn [fst snd]. apply (den_as _ _ x); auto; cbn [s_ty]; [congruence|].
    intros l Hl Hs _. pose proof (den_refl _ _ _ l X Hl Hs) as RX. unfold pick in *. cbn [s_lane s_size]. rewrite <- T, Et in *. revert RX. generalize (s_lane x (if s_size x =? 1 then 0 else l)) as q.
    induction q; intros RX; cbn; inversion RX; subst; constructor; auto. now apply (l_sym _ _ L), (l_same _ _ L).
  - apply fine_new; cbn [s_ty s_size s_len]; auto; try lia.
    intros l Hl Hs. destruct (W l Hl Hs) as (xs & Ex & Fx & Lx).
    unfold render. cbn [n_kind n_ty]. rewrite dep_value, Ex. cbn [obind].
    destruct (ext_at _ _ _ _ E A) as (nd' & A' & (_ & T' & _)). rewrite (evs_ty _ _ _ _ A'), <- T', T.
    assert (Q : exists f, (match b with LLVM => match llvm_cast (s_ty x) t with Some i => Val (map (instr ar i (s_ty x) t) xs) | None => Bad end | Metal => Val (map (conv ar (s_ty x) t) xs) end) = Val (map f xs) /\ forall u, eqv (s_ty x) u u -> eqv t (f u) (conv ar (s_ty x) t u)).
    { destruct b; [|eexists; split; [reflexivity|intros; now apply (l_conv _ _ L)]].
      destruct (FL eq_refl) as (F1 & F2). unfold llvm_cast. rewrite F1, F2. cbn [andb negb].
      destruct (N.ltb_spec (tsz (s_ty x)) (tsz t)) as [Lt|Ge].
      - eexists. split; [reflexivity|]. intros. now apply (l_ext _ _ L).
      - destruct (N.eqb_spec (tsz (s_ty x)) (tsz t)) as [Eq|].
        + exfalso. apply Ne. rewrite T. unfold is_float, Float16, Float32, Float64 in F1, F2.
          assert (t = 13 \/ t = 14 \/ t = 15) as [->|[->| ->]] by lia; (assert (s_ty x = 13 \/ s_ty x = 14 \/ s_ty x = 15) as [Q|[Q|Q]] by lia); rewrite Q in *; try reflexivity; vm_compute in Eq; discriminate.
        + eexists. split; [reflexivity|]. intros. apply (l_trunc _ _ L); auto. lia. }
    destruct Q as (f & -> & Hf). eexists. split; [reflexivity|]. split; [|now rewrite map_length].
    unfold pick in *. cbn [s_lane s_size]. eapply map_eqv; [|exact Fx]. intros. eapply (l_trans _ _ L); [apply Hf; eapply eqv_l; eauto|]. now apply (l_conv _ _ L).
Qed.

(** ** Matrix-vector products *)
Lemma inner_ok l t A d (tr : bool) j x (a : N -> R) m (f : N -> R) :
  m = (if tr then d_cols d else d_rows d) -> m < 2 ^ 16 ->
  (forall i, i < m -> elem b ar st late callable act l t A (s32 (d_off d) + s32 (if tr then j else i) * Z.of_N (if tr then (if tr then d_cols d else d_rows d) else (if tr then d_rows d else d_cols d)) + s32 (if tr then i else j))%Z = Val (a i)) ->
  forall k, k <= m -> fold_left (mat_inner b ar st late callable act l t A d tr j x) (upto k) (Val (map f (upto m)))
    = Val (map (fun i => if i <? k then fused ar t (a i) x (f i) else f i) (upto m)).
Proof.
  intros Em Hm Ha k. induction k as [|k IH] using N.peano_ind; intros Hk.
  - change (upto 0) with (@nil N). cbn [fold_left]. apply f_equal. apply map_ext. intros i. replace (i <? 0) with false by lia. reflexivity.
  - rewrite upto_succ, fold_left_app, IH by lia. cbn [fold_left]. unfold mat_inner. cbn [obind].
    rewrite Ha by lia. cbn [obind]. rewrite (s32_small k) by lia.
    rewrite (get_nth (f 0)) by (rewrite map_length, upto_length; lia). cbn [obind].
    assert (E : nth (N.to_nat k) (map (fun i => if i <? k then fused ar t (a i) x (f i) else f i) (upto m)) (f 0) = f k).
    { apply nth_error_nth. rewrite nth_error_map, upto_nth by lia. cbn. now rewrite N.ltb_irrefl. }
    rewrite E, set_nth_upto. f_equal. apply map_ext. intros i.
    destruct (N.eqb_spec i k) as [->|Ne]; [now replace (k <? N.succ k) with true by lia|].
    destruct (N.ltb_spec i k); [now replace (i <? N.succ k) with true by lia|now replace (i <? N.succ k) with false by lia].
Qed.
Lemma outer_ok l t A d (tr : bool) xs dx (a : N -> N -> R) m (f : N -> R) :
  m = (if tr then d_cols d else d_rows d) -> m < 2 ^ 16 -> N.of_nat (length xs) < 2 ^ 16 ->
  (forall i j, i < m -> j < N.of_nat (length xs) -> elem b ar st late callable act l t A (s32 (d_off d) + s32 (if tr then j else i) * Z.of_N (if tr then (if tr then d_cols d else d_rows d) else (if tr then d_rows d else d_cols d)) + s32 (if tr then i else j))%Z = Val (a i j)) ->
  forall k, k <= N.of_nat (length xs) ->
  fold_left (fun o j => obind o (fun ys => obind (get xs (s32 j)) (fun x => fold_left (mat_inner b ar st late callable act l t A d tr j x) (upto m) (Val ys)))) (upto k) (Val (map f (upto m)))
  = Val (map (fun i => fold_left (fun acc j => fused ar t (a i j) (nth (N.to_nat j) xs dx) acc) (upto k) (f i)) (upto m)).
Proof.
  intros Em Hm Hx Ha k. induction k as [|k IH] using N.peano_ind; intros Hk.
  - reflexivity.
  - rewrite upto_succ, fold_left_app, IH by lia. cbn [fold_left obind].
    rewrite (s32_small k), (get_nth dx) by lia. cbn [obind].
    rewrite (inner_ok l t A d tr k (nth (N.to_nat k) xs dx) (fun i => a i k) m _ Em Hm) by (intros; try apply Ha; lia).
    f_equal. apply map_ext_in. intros i Hi. apply upto_in in Hi. replace (i <? m) with true by lia.
    rewrite fold_left_app. reflexivity.
Qed.
Lemma fold_eqv {X} (e : R -> R -> Prop) (l : list X) (f g : X -> R -> R) : (forall x u v, In x l -> e u v -> e (f x u) (g x v)) ->
  forall u v, e u v -> e (fold_left (fun acc x => f x acc) l u) (fold_left (fun acc x => g x acc) l v).
Proof. induction l as [|x l IH]; intros H u v E; cbn; auto. apply IH; [intros; apply H; auto; now right|]. apply H; auto. now left. Qed.
Lemma nth_eqv (e : R -> R -> Prop) l m d k : Forall2 e l m -> (k < length l)%nat -> e (nth k l d) (nth k m d).
Proof. intros H; revert k; induction H; intros [|k] Hk; cbn in *; auto; try lia. apply IHForall2. lia. Qed.
Lemma map_fold {X Y Z} (f : X -> Y -> X) (g : Z -> Y) l : forall x, fold_left f (map g l) x = fold_left (fun x z => f x (g z)) l x.
Proof. induction l as [|z l IH]; intros x; cbn; auto. Qed.
Lemma Forall2_map2 {X} (e : R -> R -> Prop) (f g : X -> R) l : (forall x, In x l -> e (f x) (g x)) -> Forall2 e (map f l) (map g l).
Proof. induction l as [|x l IH]; intros H; cbn; constructor; [apply H; now left|apply IH; intros; apply H; now right]. Qed.

Lemma metal_fold {X} (f : R -> X -> out R) (g : R -> X -> R) l : (forall acc x, In x l -> f acc x = Val (g acc x)) ->
  forall acc, fold_left (fun o x => obind o (fun acc => f acc x)) l (Val acc) = Val (fold_left g l acc).
Proof. induction l as [|x l IH]; intros H acc; cbn; auto. rewrite H by now left. apply IH. intros; apply H; now right. Qed.

Lemma matvec_ok h A d a bias tr x regs i0 :
  den h a x -> good_call b st h regs (CMat A d i0 bias tr) ->
  fine h (matvec st h A d a bias tr)
    (let? va := st A in
     let n_out := if tr then d_cols d else d_rows d in
     let t := s_ty x in
     if (s_len x =? (if tr then d_rows d else d_cols d)) && (a_ty va =? t) && ((t =? Float16) || (t =? Float32))
         && match bias with
            | None => true
            | Some (i, e) => match st i with Some vb => (a_ty vb =? t) && (d_rows e =? n_out) && (d_cols e =? 1) && (d_stride e =? 1) | None => false end
            end then
        Some {| s_ty := t; s_size := s_size x; s_len := n_out; s_lane := fun l => map (product b ar st t A d (s_lane x l) bias tr) (upto n_out) |}
     else None).
Proof.
  intros X (CA & NO & IB & LB & BI). pose proof (inc_ext h a) as E. destruct (den_ext _ _ _ _ E X) as (m_ & _ & _ & _ & _ & _ & _ & W).
  destruct X as (nd & At & T & S1 & L1 & G & U & _). unfold matvec. rewrite At. cbn [bind]. rewrite L1, T.
  destruct (st A) as [va|] eqn:EA; cbn [bind]; [|now destruct (negb _)].
  destruct (N.eqb_spec (s_len x) (if tr then d_rows d else d_cols d)) as [EL|]; [|exact Logic.I]. cbn [negb andb].
  set (n_out := if tr then d_cols d else d_rows d) in *.
  set (bt := match bias with None => true | Some (i, e) => _ end).
  set (tb := match bias with None => Some None | Some (i, e) => _ end).
  assert (DEC : match tb with
                | Some tb => (if negb ((a_ty va =? Float16) && (s_ty x =? Float16) && match tb with None => true | Some t' => t' =? Float16 end
                                || (a_ty va =? Float32) && (s_ty x =? Float32) && match tb with None => true | Some t' => t' =? Float32 end) then false else true)
                | None => false end = (a_ty va =? s_ty x) && ((s_ty x =? Float16) || (s_ty x =? Float32)) && bt).
  { assert (NN : forall c : bool, (if negb c then false else true) = c) by (intros []; reflexivity).
    unfold tb, bt, Float16, Float32. destruct bias as [[k e]|]; [destruct (st k) as [vb|]|]; cbn [bind].
    - destruct (N.eqb_spec (d_rows e) n_out), (N.eqb_spec (d_cols e) 1), (N.eqb_spec (d_stride e) 1); cbn [negb orb andb]; rewrite ?andb_false_r; try reflexivity; rewrite NN, !andb_true_r; lia.
    - now rewrite andb_false_r.
    - rewrite NN, !andb_true_r. lia. }
  destruct tb as [tb'|] eqn:Etb; cbn [bind].
  2:{ rewrite <- DEC. exact Logic.I. }
  destruct (negb _) eqn:Ng; rewrite <- DEC; [exact Logic.I|].
  assert (BT : bt = true) by (destruct bt; auto; rewrite andb_false_r in DEC; discriminate).
  rewrite u16_small by exact NO.
  apply fine_new; cbn [s_ty s_size s_len]; auto; try lia.
  intros l Hl Hs. destruct (W l Hl Hs) as (xs & Ex & Fx & Lx).
  unfold render. cbn [n_kind n_ty n_len]. rewrite dep_value, Ex. cbn [obind].
  assert (EX : elements st A = a_size va) by (unfold elements; now rewrite EA). destruct (SOK _ _ EA) as (PA & _).
  set (t := s_ty x) in *. set (dx := of_bits ar 0 0).
  assert (Nx : N.of_nat (length xs) = if tr then d_rows d else d_cols d) by lia.
  (* elements of the bias *)
  assert (BIAS : forall k e, bias = Some (k, e) -> clean st k /\ d_rows e = n_out /\ d_off e + n_out <= elements st k /\ elements st k < 2 ^ 32 /\ (b = LLVM -> d_off e < 2 ^ 31)).
  { intros k e ->. destruct BI as (C & Bd & B31). unfold bt in BT. destruct (st k) as [vb|] eqn:Ek; [|discriminate].
    assert (d_rows e = n_out) by lia. destruct (SOK _ _ Ek) as (Pk & _). unfold elements in *. rewrite Ek in *. repeat split; auto; lia. }
  assert (PICK : s_lane x (if s_size x =? 1 then 0 else l) = pick x l) by reflexivity.
  assert (LP : length (pick x l) = length xs) by (symmetry; eapply Forall2_len; eauto).
  assert (TA : a_ty va = t /\ forall k e vb, bias = Some (k, e) -> st k = Some vb -> a_ty vb = t).
  { split; [|intros k e vb -> Ek; unfold bt in BT; rewrite Ek in BT; lia].
    symmetry in DEC. apply andb_prop in DEC as (DEC & _). apply andb_prop in DEC as (DEC & _). now apply N.eqb_eq. }
  destruct TA as (TA & TB).
  assert (REFX : forall j, j < N.of_nat (length xs) -> eqv t (nth (N.to_nat j) xs dx) (nth (N.to_nat j) xs dx)).
  { intros j Hj. eapply eqv_l. apply nth_eqv; [exact Fx|lia]. }
  set (aij := fun i j => element ar st A (if tr then d_off d + j * d_stride d + i else d_off d + i * d_stride d + j)).
  assert (REFA : forall i j, i < n_out -> j < N.of_nat (length xs) -> eqv t (aij i j) (aij i j)).
  { intros i j Hi Hj. unfold aij. rewrite <- TA. apply element_typed; [exact EA|]. rewrite <- EX. unfold n_out in Hi. destruct tr; apply IB; lia. }
  assert (REFB : forall i k e, i < n_out -> bias = Some (k, e) -> eqv t (element ar st k (d_off e + i)) (element ar st k (d_off e + i))).
  { intros i k e Hi Eb. destruct (BIAS k e Eb) as (_ & _ & Bd & _). unfold elements in Bd. destruct (st k) as [vb|] eqn:Ek; [|lia].
    rewrite <- (TB k e vb Eb Ek). apply element_typed; [exact Ek|lia]. }
  assert (LHS : exists F, (match b with
             | LLVM => obind (llvm_mat b ar st late callable act l t A d xs bias tr) (fun ys => Val (firstn (N.to_nat n_out) ys))
             | Metal => metal_mat b ar st late callable act l t A d n_out xs bias tr end) = Val (map F (upto n_out))
             /\ forall i, i < n_out -> eqv t (F i) (product b ar st t A d (pick x l) bias tr i)).
  { assert (SPEC : forall i (first : R) c c', eqv (acc_ty b t) first (match bias with Some (k, e) => conv ar t (acc_ty b t) (element ar st k (d_off e + i)) | None => of_bits ar (acc_ty b t) 0 end) ->
        (forall j, j < N.of_nat (length xs) -> eqv (acc_ty b t) (c j) (conv ar t (acc_ty b t) (aij i j))) -> (forall j, j < N.of_nat (length xs) -> eqv (acc_ty b t) (c' j) (conv ar t (acc_ty b t) (nth (N.to_nat j) xs dx))) ->
        eqv t (conv ar (acc_ty b t) t (fold_left (fun acc j => fused ar (acc_ty b t) (c j) (c' j) acc) (upto (N.of_nat (length xs))) first)) (product b ar st t A d (pick x l) bias tr i)).
    { intros i first c c' Hf Hc Hc'. unfold product. apply (l_conv _ _ L). rewrite (combine_upto dx), map_fold, LP. cbn [fst snd].
      apply (fold_eqv (eqv (acc_ty b t)) _ (fun j acc => fused ar (acc_ty b t) (c j) (c' j) acc)
                        (fun j acc => fused ar (acc_ty b t) (conv ar t (acc_ty b t) (aij i j)) (conv ar t (acc_ty b t) (nth (N.to_nat j) (pick x l) dx)) acc)); [|exact Hf].
      intros j u v Hj Hu. apply upto_in in Hj. apply (l_fused _ _ L); auto.
      eapply (l_trans _ _ L); [apply Hc'; exact Hj|]. apply (l_conv _ _ L). apply nth_eqv; [exact Fx|lia]. }
    destruct b eqn:Eb.
    - destruct (LB eq_refl) as (O31 & St).
      (* LLVM *)
      set (f0 := fun i => match bias with Some (k, e) => element ar st k (d_off e + i) | None => of_bits ar t 0 end).
      exists (fun i => fold_left (fun acc j => fused ar t (aij i j) (nth (N.to_nat j) xs dx) acc) (upto (N.of_nat (length xs))) (f0 i)).
      split.
      + unfold llvm_mat. fold n_out.
        assert (INIT : match bias with Some (i0, e) => each (fun k => elem LLVM ar st late callable act l t i0 (s32 (d_off e) + s32 k)%Z) (upto n_out) | None => Val (repeat (of_bits ar t 0) (N.to_nat n_out)) end
                       = Val (map f0 (upto n_out))).
        { unfold f0. destruct bias as [[k e]|].
          - apply each_ok. intros q Hq. apply upto_in in Hq. destruct (BIAS _ _ eq_refl) as (C & _ & Bd & _ & B31). specialize (B31 eq_refl).
            rewrite !s32_small by lia. replace (Z.of_N (d_off e) + Z.of_N q)%Z with (Z.of_N (d_off e + q)) by lia. rewrite <- Eb. apply elem_ok; auto. lia.
          - f_equal. clear. unfold upto. rewrite map_map. generalize 0%nat as s. induction (N.to_nat n_out) as [|n IH]; intros s; cbn; [reflexivity|]. f_equal. apply IH. }
        rewrite INIT. cbn [obind]. rewrite <- Nx.
        pose proof (outer_ok l t A d tr xs dx aij n_out f0 eq_refl NO ltac:(lia)) as OU. rewrite Eb in OU. rewrite OU; [| |lia].
        * cbn [obind]. f_equal. apply firstn_all2. rewrite map_length, upto_length. lia.
        * intros i j Hi Hj. unfold aij. rewrite <- Eb.
          set (row := if tr then j else i) in *. set (col := if tr then i else j) in *.
          assert (Hr : row < d_rows d) by (unfold row, n_out in *; destruct tr; lia). assert (Hc : col < d_cols d) by (unfold col, n_out in *; destruct tr; lia).
          assert (row < 2 ^ 16 /\ col < 2 ^ 16) by (unfold row, col, n_out in *; destruct tr; lia).
          rewrite !s32_small by lia.
          replace (Z.of_N (d_off d) + Z.of_N row * Z.of_N (if tr then if tr then d_cols d else d_rows d else if tr then d_rows d else d_cols d) + Z.of_N col)%Z
            with (Z.of_N (d_off d + row * d_stride d + col)).
          2:{ destruct St as [->|R1]; [destruct tr; lia|]. assert (row = 0) by lia. rewrite H0. destruct tr; lia. }
          replace (if tr then d_off d + j * d_stride d + i else d_off d + i * d_stride d + j) with (d_off d + row * d_stride d + col) by (unfold row, col; destruct tr; reflexivity).
          apply elem_ok; auto.
      + intros i Hi. specialize (SPEC i (f0 i) (fun j => aij i j) (fun j => nth (N.to_nat j) xs dx)).
        assert (FOLD : eqv t (fold_left (fun acc j => fused ar t (aij i j) (nth (N.to_nat j) xs dx) acc) (upto (N.of_nat (length xs))) (f0 i))
                             (fold_left (fun acc j => fused ar t (aij i j) (nth (N.to_nat j) xs dx) acc) (upto (N.of_nat (length xs))) (f0 i))).
        { apply (fold_eqv (eqv t) _ (fun j acc => fused ar t (aij i j) (nth (N.to_nat j) xs dx) acc) (fun j acc => fused ar t (aij i j) (nth (N.to_nat j) xs dx) acc)).
          - intros j u v Hj Hu. apply upto_in in Hj. apply (l_fused _ _ L); auto.
          - unfold f0. destruct bias as [[k e]|]; [now apply REFB|apply (l_lit _ _ L)]. }
        eapply (l_trans _ _ L); [|apply SPEC]; cbn [acc_ty].
        * apply (l_sym _ _ L), (l_same _ _ L). exact FOLD.
        * unfold f0. destruct bias as [[k e]|]; [apply (l_sym _ _ L), (l_same _ _ L); now apply REFB|apply (l_lit _ _ L)].
        * intros j Hj. apply (l_sym _ _ L), (l_same _ _ L). auto.
        * intros j Hj. apply (l_sym _ _ L), (l_same _ _ L). auto.
    - (* Metal *)
      set (f0 := fun i => match bias with Some (k, e) => conv ar t Float32 (element ar st k (d_off e + i)) | None => of_bits ar Float32 0 end).
      exists (fun i => conv ar Float32 t (fold_left (fun acc j => fused ar Float32 (conv ar t Float32 (aij i j)) (conv ar t Float32 (nth (N.to_nat j) xs dx)) acc) (upto (N.of_nat (length xs))) (f0 i))).
      split.
      + unfold metal_mat. apply each_ok. intros i Hi. apply upto_in in Hi.
        assert (INIT : match bias with Some (k, e) => obind (elem Metal ar st late callable act l t k (Z.of_N (u32 (d_off e + i)))) (fun y => Val (conv ar t Float32 y)) | None => Val (of_bits ar Float32 0) end = Val (f0 i)).
        { unfold f0. destruct bias as [[k e]|]; [|reflexivity]. destruct (BIAS _ _ eq_refl) as (C & _ & Bd & B32 & _).
          rewrite u32_small by lia. rewrite <- Eb, elem_ok by (auto; lia). reflexivity. }
        rewrite INIT. cbn [obind].
        rewrite (metal_fold _ (fun acc j => fused ar Float32 (conv ar t Float32 (aij i j)) (conv ar t Float32 (nth (N.to_nat j) xs dx)) acc)); [reflexivity|].
        intros acc j Hj. apply upto_in in Hj. unfold aij.
        set (row := if tr then j else i) in *. set (col := if tr then i else j) in *.
        assert (Hr : row < d_rows d) by (unfold row, n_out in *; destruct tr; lia). assert (Hc : col < d_cols d) by (unfold col, n_out in *; destruct tr; lia).
        pose proof (IB _ _ Hr Hc) as Hb. rewrite u32_small by lia. rewrite <- Eb, elem_ok by auto. cbn [obind].
        rewrite (get_nth dx) by lia. cbn [obind].
        replace (if tr then d_off d + j * d_stride d + i else d_off d + i * d_stride d + j) with (d_off d + row * d_stride d + col) by (unfold row, col; destruct tr; reflexivity).
        reflexivity.
      + intros i Hi. apply (SPEC i (f0 i) (fun j => conv ar t Float32 (aij i j)) (fun j => conv ar t Float32 (nth (N.to_nat j) xs dx))); cbn [acc_ty].
        * unfold f0. destruct bias as [[k e]|]; [apply (l_conv _ _ L); now apply REFB|apply (l_lit _ _ L)].
        * intros. apply (l_conv _ _ L). auto.
        * intros. apply (l_conv _ _ L). auto. }
  destruct LHS as (F & -> & HF). eexists. split; [reflexivity|]. split; [|now rewrite map_length, upto_length].
  unfold pick at 1. cbn [s_lane s_size]. rewrite PICK. apply Forall2_map2. intros i Hi. apply upto_in in Hi. auto.
Qed.

(** ** Programs *)
Lemma exec_ok h regs env c : inv h regs env -> good_call b st h regs c -> fine h (exec st h regs c) (meaning b ar st env c).
Proof.
  intros I G. destruct c as [l|ty bits size len|buf off len|u a|a ty|o a c|a c d|A d x bias tr]; cbn [exec].
  - eapply pack_ok; eauto.
  - cbn [meaning]. apply literal_ok. exact G.
  - eapply load_ok; eauto.
  - cbn [meaning]. pose proof (inv_look _ _ _ a I) as La. destruct (nth_error regs a) as [i|], (nth_error env a) as [v|]; try easy. cbn [bind].
    destruct G as (BM & NU). now apply unary_ok.
  - cbn [meaning]. pose proof (inv_look _ _ _ a I) as La. cbn [good_call] in G. unfold typed in G. destruct (nth_error regs a) as [i|], (nth_error env a) as [v|]; try easy. cbn [bind].
    apply cast_ok; auto. intros E. destruct (G E) as (F1 & F2). split; auto. destruct La as (nd & At & T & _). rewrite <- T. eapply F2; eauto.
  - cbn [meaning]. pose proof (inv_look _ _ _ a I) as La. pose proof (inv_look _ _ _ c I) as Lc. destruct G as (NO & NA & FL). unfold typed in FL.
    unfold args in NA. cbn [flat_map] in NA.
    destruct (nth_error regs a) as [i|], (nth_error env a) as [v|]; try easy. cbn [bind].
    destruct (nth_error regs c) as [j|], (nth_error env c) as [w|]; try easy. cbn [bind].
    apply binary_ok; auto. intros E F. destruct La as (nd & At & T & _). rewrite <- T. eapply FL; eauto.
  - cbn [meaning]. pose proof (inv_look _ _ _ a I) as La. pose proof (inv_look _ _ _ c I) as Lc. pose proof (inv_look _ _ _ d I) as Ld. destruct G as (NA & FL). unfold typed in FL.
    unfold args in NA. cbn [flat_map] in NA.
    destruct (nth_error regs a) as [i|], (nth_error env a) as [v|]; try easy. cbn [bind].
    destruct (nth_error regs c) as [j|], (nth_error env c) as [w|]; try easy. cbn [bind].
    destruct (nth_error regs d) as [k|], (nth_error env d) as [q|]; try easy. cbn [bind].
    apply ternary_ok; auto. destruct La as (nd & At & T & _). rewrite <- T. eapply FL; eauto.
  - cbn [meaning]. pose proof (inv_look _ _ _ x I) as Lx. destruct (nth_error regs x) as [i|], (nth_error env x) as [v|]; try easy. cbn [bind].
    eapply matvec_ok; eauto.
Qed.
Lemma run_ok p : forall h regs env, inv h regs env -> good b st h regs p ->
  match run st h regs p, meanings b ar st env p with Some (h', regs'), Some env' => inv h' regs' env' | None, None => True | _, _ => False end.
Proof.
  induction p as [|c p IH]; intros h regs env I G; [exact I|]. destruct G as (G & GS). pose proof (exec_ok _ _ _ _ I G) as F.
  cbn [run meanings]. destruct (exec st h regs c) as [[h' a]|], (meaning b ar st env c) as [v|]; try easy. cbn [bind fst snd].
  destruct F as (E & D). cbn [fst snd] in *. apply IH; [|apply (GS (h', a) eq_refl)].
  destruct I as (Ln & H). split; [now rewrite !app_length, Ln|].
  intros r a' v' R1 R2. destruct (Nat.lt_ge_cases r (length regs)) as [Lt|Ge].
  - rewrite nth_error_app1 in R1, R2 by lia. eapply den_ext; eauto.
  - rewrite nth_error_app2 in R1, R2 by lia. rewrite <- Ln in R2. destruct (r - length regs)%nat; [|destruct n; discriminate]. injection R1 as <-. injection R2 as <-. exact D.
Qed.
Lemma program_ok p : good b st [] [] p ->
  match run st [] [] p, meanings b ar st [] p with
  | Some (h, regs), Some env =>
      length regs = length env /\
      forall r a v, nth_error regs r = Some a -> nth_error env r = Some v ->
        exists nd, at_ h a = Some nd /\ n_ty nd = s_ty v /\ n_size nd = s_size v /\ n_len nd = s_len v /\ s_len v < 2 ^ 16 /\
        forall l, callable = false \/ act l = true -> s_size v = 1 \/ l < s_size v ->
          exists xs, val_ h l a = Val xs /\ Forall2 (eqv (s_ty v)) xs (pick v l) /\ length xs = N.to_nat (s_len v)
  | None, None => True
  | _, _ => False
  end.
Proof.
  intros G. pose proof (run_ok p [] [] [] ltac:(split; [reflexivity|intros [|r]; discriminate]) G) as H.
  destruct (run st [] [] p) as [[h regs]|], (meanings b ar st [] p) as [env|]; try easy.
  destruct H as (Ln & H). split; [exact Ln|]. intros r a v R1 R2. destruct (H r a v R1 R2) as (nd & A & T & S1 & L1 & G1 & U1 & V).
  exists nd. repeat (split; [assumption|]). exact V.
Qed.
End Values.
