From Verif Require Import Base Cpy_Model Cpy_Proofs Lup_Model Lup_Spec.
Local Open Scope N_scope.

Section Proofs.
Context {K : Type}.
Variable expr_eq : forall a b : expr K, {a = b} + {a <> b}.
Variables (sem : N -> K -> list N -> N) (outv : N -> nat -> N).
Notation var := (var K).
Notation ev := (fun k s (v : var) => eval sem outv k s (v_expr v)).
Notation same := (same expr_eq).

Lemma same_ev a b k s : same a b = true -> ev k s a = ev k s b.
Proof. unfold Lup_Model.same. destruct (expr_eq _ _) as [->|]; [reflexivity|discriminate]. Qed.
Lemma same_lit_ev (a b : var) k s k' s' : same_lit a b = true -> ev k s a = ev k' s' b.
Proof.
  unfold same_lit, lit_of. destruct (v_expr a); try discriminate. destruct (v_expr b); try discriminate. intros H. apply N.eqb_eq in H. subst. reflexivity.
Qed.
Lemma phis_length i outer : length (phis (K := K) i outer) = length outer.
Proof. revert i. induction outer as [|v outer IH]; intros i; cbn [phis length]; [reflexivity|]. now rewrite IH. Qed.
Lemma phis_eval k s : forall outer i, map (ev k s) (phis i outer) = map (fun j => nth j s 0) (seq i (length outer)).
Proof. induction outer as [|v outer IH]; intros i; cbn [phis map length seq]; [reflexivity|]. rewrite IH. reflexivity. Qed.
Lemma nth_seq (s : list N) : map (fun j => nth j s 0) (seq 0 (length s)) = s.
Proof.
  assert (G : forall s i, map (fun j => nth (j - i) s 0) (seq i (length s)) = s).
  { clear. induction s as [|x s IH]; intros i; cbn [length seq map]; [reflexivity|]. rewrite Nat.sub_diag. f_equal. rewrite <- (IH (S i)) at 2. apply map_ext_in. intros j H. apply in_seq in H.
    replace (j - i)%nat with (S (j - S i)) by lia. reflexivity. }
  rewrite <- (G s 0%nat) at 2. apply map_ext. intros j. now rewrite Nat.sub_0_r.
Qed.

(** Eliminated state keeps its value.  [keeps el init s]: in [s], eliminated variables have
    their initial values *)
Fixpoint keeps (el : list bool) (init s : list N) : Prop :=
  match el, init, s with
  | b :: el, x :: init, y :: s => (b = true -> y = x) /\ keeps el init s
  | [], [], [] => True
  | _, _, _ => False
  end.
Lemma keeps_length el : forall init s, keeps el init s -> length init = length el /\ length s = length el.
Proof. induction el as [|b el IH]; intros [|x init] [|y s] H; cbn [keeps] in H; try contradiction; [now split|]. destruct H as [_ H]. apply IH in H. cbn [length]. lia. Qed.
Lemma keeps_refl el : forall init, length init = length el -> keeps el init init.
Proof. induction el as [|b el IH]; intros [|x init] L; cbn [keeps length] in *; try lia. split; [reflexivity|]. apply IH. lia. Qed.
Lemma eliminations_length optimize size : forall outer inner outs, length inner = length outer -> length outs = length outer -> length (eliminations expr_eq optimize size outer inner outs) = length outer.
Proof. induction outer as [|v outer IH]; intros [|p inner] [|q outs] L1 L2; cbn [eliminations length] in *; try lia. rewrite IH; lia. Qed.
(** One iteration, seen from the first recording *)
Lemma keeps_step optimize size k : forall (outer inner outs : list var) (init s : list N) st, length inner = length outer -> length outs = length outer ->
  init = map (ev k []) outer -> s = map (ev k st) inner ->
  keeps (eliminations expr_eq optimize size outer inner outs) init s -> keeps (eliminations expr_eq optimize size outer inner outs) init (map (ev k st) outs).
Proof.
  induction outer as [|v outer IH]; intros [|p inner] [|q outs] init s st L1 L2 -> -> H; cbn [length eliminations keeps map] in *; try lia.
  destruct H as [H1 H2]. split; [|eapply IH; try reflexivity; try lia; assumption]. intros E. unfold eliminate in E. destruct (same q p) eqn:Es.
  - rewrite (same_ev q p k st Es). apply H1. unfold eliminate. rewrite Es. exact E.
  - apply Bool.andb_true_iff in E as [_ E]. symmetry. now apply same_lit_ev.
Qed.
Lemma replace_eval k : forall el (outer inner : list var) init s st, Forall (closed sem outv) outer -> length inner = length outer ->
  init = map (ev k []) outer -> s = map (ev k st) inner -> keeps el init s -> map (ev k st) (replace el outer inner) = s.
Proof.
  induction el as [|b el IH]; intros [|v outer] [|p inner] init s st C L -> -> H; cbn [length replace map keeps] in *; try lia; try contradiction; [reflexivity|].
  destruct H as [H1 H2]. inversion C as [|? ? Cv Co]; subst. f_equal; [|eapply IH; try reflexivity; try lia; assumption]. destruct b; [|reflexivity]. rewrite (H1 eq_refl). symmetry. apply Cv.
Qed.
Lemma replace_length : forall el (outer inner : list var), length el = length outer -> length inner = length outer -> length (replace el outer inner) = length outer.
Proof. induction el as [|b el IH]; intros [|v outer] [|p inner] L1 L2; cbn [length replace] in *; try lia. rewrite IH; lia. Qed.

(** The state that the generated code computes *)
Definition shape (el : list bool) (outs : list var) : list (option var) := map (fun bv : bool * var => if fst bv then None else Some (snd bv)) (combine el outs).
Lemma shape_cons b el q outs : shape (b :: el) (q :: outs) = (if b then None else Some q) :: shape el outs.
Proof. reflexivity. Qed.
Lemma shape_length el outs : length outs = length el -> length (shape el outs) = length el.
Proof. intros L. unfold shape. rewrite map_length, combine_length. lia. Qed.
Lemma finish_shape llvm c : forall el size (outer inner outs : list var) sz new, finish expr_eq llvm c el size outer inner outs = Some (sz, new) ->
  new = shape el outs /\ length outs = length el /\ size <= sz.
Proof.
  induction el as [|b el IH]; intros size [|v outer] [|p inner] [|q outs] sz new H; cbn [finish] in *; rewrite ?shape_cons; try discriminate; [injection H as <- <-; split; [reflexivity|split; [reflexivity|lia]]|].
  destruct b; cbn [negb] in H.
  - destruct (_ && _) in H; [discriminate|]. destruct (finish expr_eq llvm c el size outer inner outs) as [[sz' new']|] eqn:E; [|discriminate]. cbn [bind fst snd] in H. injection H as <- <-.
    apply IH in E as (-> & L & S1). split; [reflexivity|]. split; [cbn [length]; now rewrite L|assumption].
  - destruct (_ && _ && _) in H; [discriminate|]. destruct (llvm && _) in H; [discriminate|]. destruct (finish expr_eq llvm c el (N.max (v_size q) size) outer inner outs) as [[sz' new']|] eqn:E; [|discriminate]. cbn [bind fst snd] in H. injection H as <- <-.
    apply IH in E as (-> & L & S1). split; [reflexivity|]. split; [cbn [length]; now rewrite L|lia].
Qed.
Lemma news_ok (l : loop K) k s0 : forall el (outs : list var) init s, keeps el init s -> keeps el init (map (ev k s0) outs) -> length outs = length el ->
  news sem outv l k s0 s (shape el outs) = if active sem outv l k s0 then map (ev k s0) outs else s.
Proof.
  induction el as [|b el IH]; intros [|q outs] [|i init] [|x s] H1 H2 L; cbn [length keeps map] in *; rewrite ?shape_cons; cbn [news]; try lia; try contradiction; [now destruct (active sem outv l k s0)|].
  destruct H1 as [H1 H1'], H2 as [H2 H2']. specialize (IH outs init s H1' H2' ltac:(lia)). destruct b; rewrite IH; destruct (active sem outv l k s0); try reflexivity.
  f_equal. rewrite (H1 eq_refl). symmetry. now apply H2.
Qed.
Lemma outs_of_ok k : forall el (outer outs : list var) s, keeps el (map (ev k []) outer) s -> length outs = length el ->
  outs_of sem outv k s outer (shape el outs) = s.
Proof.
  induction el as [|b el IH]; intros [|v outer] [|q outs] [|x s] H L; cbn [length keeps map] in *; rewrite ?shape_cons; cbn [outs_of]; try lia; try contradiction; [reflexivity|].
  destruct H as [H1 H2]. f_equal; [|apply IH; [assumption|lia]]. destruct b; [|reflexivity]. symmetry. now apply H1.
Qed.

(** ** Vectors of lanes *)
Variable F : N -> list N -> bool * list N.
Variable w : N.
(** A loop whose code agrees with [F] in the states it can reach *)
Record agrees (l : loop K) (el : list bool) (outs : list var) (init : N -> list N) : Prop := {
  ag_new : l_new l = shape el outs;
  ag_len : length outs = length el;
  ag_step : forall k s, keeps el (init k) s -> active sem outv l k s = fst (F k s) /\ map (ev k s) outs = snd (F k s) /\ keeps el (init k) (snd (F k s))
}.
Definition step (k : N) (s : list N) : list N := if fst (F k s) then snd (F k s) else s.
Lemma run_agrees l el outs init : agrees l el outs init -> forall fuel s, (forall k, keeps el (init k) (s k)) -> forall r, run_loop sem outv w fuel l s = Some r ->
  forall k, k < w -> exists m, while m (F k) (s k) = Some (r k) /\ keeps el (init k) (r k).
Proof.
  intros A. induction fuel as [|fuel IH]; intros s Ks r R k Bk; cbn [run_loop] in R; [discriminate|].
  destruct (existsb _ (lanes w)) eqn:E.
  - destruct (ag_step _ _ _ _ A k (s k) (Ks k)) as (A1 & A2 & A3).
    assert (N1 : forall j, news sem outv l j (s j) (s j) (l_new l) = step j (s j)).
    { intros j. destruct (ag_step _ _ _ _ A j (s j) (Ks j)) as (B1 & B2 & B3). rewrite (ag_new _ _ _ _ A). rewrite (news_ok l j (s j) el outs (init j)); [unfold step; rewrite B1, B2; reflexivity|apply Ks|rewrite B2; assumption|apply (ag_len _ _ _ _ A)]. }
    assert (Ks' : forall j, keeps el (init j) (step j (s j))). { intros j. unfold step. destruct (fst (F j (s j))); [apply (ag_step _ _ _ _ A j (s j) (Ks j))|apply Ks]. }
    destruct (IH (fun j => news sem outv l j (s j) (s j) (l_new l)) ltac:(intros j; cbn beta; rewrite (N1 j); apply Ks') r R k Bk) as (m & W & Kr). cbn beta in W. rewrite N1 in W. unfold step in W.
    destruct (fst (F k (s k))) eqn:Ef; [exists (S m)|exists m]; split; try assumption. cbn [while]. now rewrite Ef.
  - injection R as <-. exists 1%nat. split; [|apply Ks]. cbn [while]. destruct (ag_step _ _ _ _ A k (s k) (Ks k)) as (A1 & _ & _). destruct (fst (F k (s k))) eqn:Ef; [|reflexivity]. exfalso.
    rewrite <- Bool.not_true_iff_false in E. apply E. apply existsb_exists. exists k. split; [|exact A1]. unfold lanes. apply in_map_iff. exists (N.to_nat k). split; [apply N2Nat.id|]. apply in_seq. lia.
Qed.
Lemma while_mono G : forall m s r, while m G s = Some r -> forall m', (m <= m')%nat -> while m' G s = Some r.
Proof. induction m as [|m IH]; intros s r H m' L; cbn [while] in *; [discriminate|]. destruct m' as [|m']; [lia|]. cbn [while]. destruct (fst (G s)); [|assumption]. apply IH; [assumption|lia]. Qed.
Lemma news_step l el outs init : agrees l el outs init -> forall j s, keeps el (init j) s -> news sem outv l j s s (l_new l) = step j s /\ keeps el (init j) (step j s).
Proof.
  intros A j s Ks. destruct (ag_step _ _ _ _ A j s Ks) as (B1 & B2 & B3). split; [|unfold step; destruct (fst (F j s)); assumption].
  rewrite (ag_new _ _ _ _ A). rewrite (news_ok l j s el outs (init j)); [unfold step; rewrite B1, B2; reflexivity|assumption|rewrite B2; assumption|apply (ag_len _ _ _ _ A)].
Qed.
Lemma run_ends l el outs init : agrees l el outs init -> forall fuel s, (forall k, keeps el (init k) (s k)) -> (forall k, k < w -> exists r, while (S fuel) (F k) (s k) = Some r) ->
  exists r, run_loop sem outv w (S fuel) l s = Some r.
Proof.
  intros A. induction fuel as [|fuel IH]; intros s Ks T.
  - cbn [run_loop]. destruct (existsb _ (lanes w)) eqn:E; [|now eexists]. exfalso. apply existsb_exists in E as (k & Hk & E). unfold lanes in Hk. apply in_map_iff in Hk as (i & <- & Hi). apply in_seq in Hi.
    destruct (T (N.of_nat i) ltac:(lia)) as [r Hr]. cbn [while] in Hr. rewrite (proj1 (ag_step _ _ _ _ A _ _ (Ks _))) in E. rewrite E in Hr. discriminate.
  - remember (S fuel) as f eqn:Ef. cbn [run_loop]. destruct (existsb _ (lanes w)) eqn:E; [|now eexists]. subst f. apply IH.
    + intros k. destruct (news_step _ _ _ _ A k (s k) (Ks k)) as [-> X]. exact X.
    + intros k Bk. destruct (news_step _ _ _ _ A k (s k) (Ks k)) as [-> _]. unfold step. destruct (T k Bk) as [r Hr]. remember (S fuel) as f eqn:Ef. cbn [while] in Hr. destruct (fst (F k (s k))) eqn:Ea; [now exists r|]. exists (s k). subst f. cbn [while]. now rewrite Ea.
Qed.
Lemma bound_all (P : N -> nat -> Prop) : (forall k m m', P k m -> (m <= m')%nat -> P k m') -> forall n : nat, (forall k, k < N.of_nat n -> exists m, P k m) -> exists m, forall k, k < N.of_nat n -> P k m.
Proof.
  intros Mono. induction n as [|n IH]; intros H; [exists 0%nat; intros k Hk; lia|]. destruct IH as [m Hm]; [intros k Hk; apply H; lia|]. destruct (H (N.of_nat n) ltac:(lia)) as [m' Hm'].
  exists (Nat.max m m'). intros k Hk. destruct (N.eq_dec k (N.of_nat n)) as [->|Ne]; [apply (Mono _ m'); [assumption|lia]|]. apply (Mono _ m); [apply Hm; lia|lia].
Qed.

(** ** Recording *)
Lemma replace_none : forall el (outer inner : list var), length el = length outer -> length inner = length outer -> existsb (fun b => b) el = false -> replace el outer inner = inner.
Proof.
  induction el as [|b el IH]; intros [|v outer] [|p inner] L1 L2 H; cbn [length replace existsb] in *; try lia; [reflexivity|]. apply Bool.orb_false_iff in H as [-> H]. rewrite IH; [reflexivity|lia|lia|assumption].
Qed.
Lemma record_inv llvm optimize (body : recorder K) outer l : (forall vs, length vs = length outer -> length (snd (body vs)) = length outer) ->
  record_loop expr_eq llvm optimize body outer = Some l ->
  exists size el, el = eliminations expr_eq optimize size outer (phis 0 outer) (snd (body (phis 0 outer))) /\
    l_inner l = replace el outer (phis 0 outer) /\ l_cond l = fst (body (l_inner l)) /\
    finish expr_eq llvm (l_cond l) el (loop_size expr_eq (N.max 1 (v_size (l_cond l))) outer (l_inner l) (snd (body (l_inner l)))) outer (l_inner l) (snd (body (l_inner l))) = Some (l_size l, l_new l).
Proof.
  intros HL H. unfold record_loop in H. pose proof (HL (phis 0 outer) (phis_length 0 outer)) as L1. destruct (body (phis 0 outer)) as [cond outs] eqn:Eb. cbn [snd] in L1.
  set (size := loop_size expr_eq (N.max 1 (v_size cond)) outer (phis 0 outer) outs) in *. set (el := eliminations expr_eq optimize size outer (phis 0 outer) outs) in *.
  exists size, el. split; [reflexivity|].
  assert (Le : length el = length outer) by (apply eliminations_length; [apply phis_length|assumption]).
  destruct (existsb (fun b => b) el) eqn:Ee; cbn [negb] in H.
  - destruct (body (replace el outer (phis 0 outer))) as [cond' outs'] eqn:Eb'.
    destruct (finish expr_eq llvm cond' el _ outer (replace el outer (phis 0 outer)) outs') as [[sz new]|] eqn:Ef; [|discriminate]. cbn [bind fst snd] in H. injection H as <-. cbn [l_inner l_cond l_size l_new]. rewrite Eb'. cbn [fst snd]. repeat split; assumption.
  - rewrite (replace_none el outer (phis 0 outer) Le (phis_length 0 outer) Ee).
    destruct (finish expr_eq llvm cond el size outer (phis 0 outer) outs) as [[sz new]|] eqn:Ef; [|discriminate]. cbn [bind fst snd] in H. injection H as <-. cbn [l_inner l_cond l_size l_new]. rewrite Eb. cbn [fst snd]. repeat split; assumption.
Qed.
Lemma record_agrees llvm optimize (body : recorder K) outer l : faithful sem outv (length outer) body F -> Forall (closed sem outv) outer ->
  record_loop expr_eq llvm optimize body outer = Some l -> exists el outs, length el = length outer /\ agrees l el outs (start sem outv outer).
Proof.
  intros Ff Co R. destruct (record_inv llvm optimize body outer l ltac:(intros vs Hv; apply (Ff vs 0 [] Hv)) R) as (size & el & Eel & Ein & Ec & Efin).
  pose proof (phis_length 0 outer) as Lp. destruct (Ff (phis 0 outer) 0 [] Lp) as [L1 _].
  assert (Le : length el = length outer) by (rewrite Eel; apply eliminations_length; assumption).
  exists el, (snd (body (l_inner l))). split; [assumption|]. destruct (finish_shape _ _ _ _ _ _ _ _ _ Efin) as (Sh & Lo & _).
  constructor; [assumption|assumption|]. intros k s Ks. pose proof (keeps_length _ _ _ Ks) as [La Lb].
  assert (Ps : map (ev k s) (phis 0 outer) = s). { rewrite phis_eval. rewrite <- Le, <- Lb. apply nth_seq. }
  assert (Rs : map (ev k s) (l_inner l) = s). { rewrite Ein. apply (replace_eval k el outer (phis 0 outer) (start sem outv outer k) s s Co Lp eq_refl (eq_sym Ps) Ks). }
  assert (Li : length (l_inner l) = length outer) by (rewrite Ein; apply replace_length; [assumption|exact Lp]).
  destruct (Ff (l_inner l) k s Li) as (_ & F1 & F2). rewrite Rs in F1, F2. split; [unfold active; rewrite Ec; symmetry; exact F1|]. split; [symmetry; exact F2|].
  destruct (Ff (phis 0 outer) k s Lp) as (_ & _ & F3). rewrite Ps in F3. rewrite F3. rewrite Eel.
  apply (keeps_step optimize size k outer (phis 0 outer) _ (start sem outv outer k) s s Lp L1 eq_refl (eq_sym Ps)). rewrite <- Eel. exact Ks.
Qed.

(** ** The LLVM backend *)
Lemma exec_sound llvm optimize (body : recorder K) outer l fuel out : faithful sem outv (length outer) body F -> Forall (closed sem outv) outer ->
  record_loop expr_eq llvm optimize body outer = Some l -> exec sem outv w fuel l outer = Some out ->
  forall k, k < w -> exists m, while m (F k) (start sem outv outer k) = Some (out k).
Proof.
  intros Ff Co R E k Bk. destruct (record_agrees llvm optimize body outer l Ff Co R) as (el & outs & Le & A). unfold exec in E.
  destruct (run_loop sem outv w fuel l (start sem outv outer)) as [s|] eqn:Er; [|discriminate]. cbn [bind] in E. injection E as <-.
  assert (K0 : forall j, keeps el (start sem outv outer j) (start sem outv outer j)) by (intros j; apply keeps_refl; unfold start; rewrite map_length; now rewrite Le).
  destruct (run_agrees l el outs (start sem outv outer) A fuel _ K0 s Er k Bk) as (m & W & Ks). exists m. rewrite W. f_equal. rewrite (ag_new _ _ _ _ A). symmetry. apply outs_of_ok; [exact Ks|apply (ag_len _ _ _ _ A)].
Qed.
Lemma exec_ends llvm optimize (body : recorder K) outer l : faithful sem outv (length outer) body F -> Forall (closed sem outv) outer ->
  record_loop expr_eq llvm optimize body outer = Some l -> (forall k, k < w -> exists m r, while m (F k) (start sem outv outer k) = Some r) ->
  exists fuel out, exec sem outv w fuel l outer = Some out.
Proof.
  intros Ff Co R T. destruct (record_agrees llvm optimize body outer l Ff Co R) as (el & outs & Le & A).
  destruct (bound_all (fun k m => exists r, while m (F k) (start sem outv outer k) = Some r)) with (n := N.to_nat w) as [m Hm].
  { intros k m m' [r Hr] L. exists r. exact (while_mono _ _ _ _ Hr m' L). }
  { intros k Hk. apply T. lia. }
  destruct (run_ends l el outs (start sem outv outer) A m (start sem outv outer)) as [r Hr].
  { intros j. apply keeps_refl. unfold start. rewrite map_length. now rewrite Le. }
  { intros k Hk. destruct (Hm k ltac:(lia)) as [r Hr]. exists r. apply (while_mono _ _ _ _ Hr). lia. }
  exists (S m). unfold exec. rewrite Hr. cbn [bind]. now eexists.
Qed.

(** ** CUDA, Metal *)
Lemma pairs_in : forall (new : list (option var)) i a b, In (a, b) (pairs i new) <-> exists j n, nth_error new j = Some n /\ a = phi_reg (i + j) /\ b = out_reg (i + j) n.
Proof.
  induction new as [|n new IH]; intros i a b; cbn [pairs In].
  - split; [intros []|intros (j & n & H & _); destruct j; discriminate H].
  - split.
    + intros [H|H]; [injection H as <- <-; exists 0%nat, n; rewrite Nat.add_0_r; repeat split|]. apply IH in H as (j & m & H1 & -> & ->). exists (S j), m. rewrite Nat.add_succ_r. repeat split. exact H1.
    + intros (j & m & H1 & -> & ->). destruct j as [|j]; cbn [nth_error] in H1; [injection H1 as ->; left; now rewrite Nat.add_0_r|]. right. apply IH. exists j, m. rewrite Nat.add_succ_r. repeat split. exact H1.
Qed.
Lemma thread_step (via16 : bool) (b8 : N -> bool) l el outs init k s : agrees l el outs init -> (forall p, In p (pairs 0 (l_new l)) -> b8 (fst p) = b8 (snd p)) -> keeps el (init k) s -> fst (F k s) = true ->
  exists m, irun b8 via16 (body_regs sem outv k l s, fun _ _ => None) (render (fun _ => true) (pairs 0 (l_new l))) = Some m /\ map (fun i => fst m (phi_reg i)) (seq 0 (length s)) = snd (F k s).
Proof.
  intros A Hb Ks Fa. pose proof (keeps_length _ _ _ Ks) as [_ Ls].
  destruct (render_ok (fun _ => true) b8 via16 (pairs 0 (l_new l)) Hb) with (r := body_regs sem outv k l s) (t := fun (_ : bool) (_ : N) => @None N) as (r' & t' & R & V & _).
  { intros i o o' H1 H2. apply pairs_in in H1 as (j & n & E1 & -> & ->). apply pairs_in in H2 as (j' & n' & E2 & E3 & ->). unfold phi_reg in E3. assert (j = j') by lia. subst j'. congruence. }
  exists (r', t'). split; [exact R|]. cbn [fst].
  destruct (news_step l el outs init A k s Ks) as [Nw _]. unfold step in Nw. rewrite Fa in Nw. rewrite <- Nw.
  assert (Act : active sem outv l k s = true) by (rewrite (proj1 (ag_step _ _ _ _ A k s Ks)); exact Fa).
  assert (G : forall new s1 i0, length new = length s1 -> (forall i, (i < length s1)%nat -> nth i s1 0 = nth (i0 + i) s 0) -> (forall j n, nth_error new j = Some n -> r' (phi_reg (i0 + j)) = body_regs sem outv k l s (out_reg (i0 + j) n)) ->
     (forall j, (j < length new)%nat -> nth_error (l_new l) (i0 + j) = nth_error new j) ->
     map (fun i => r' (phi_reg i)) (seq i0 (length s1)) = news sem outv l k s s1 new).
  { clear - Act. induction new as [|n new IH]; intros [|x s1] i0 L Hs Hr Hn; cbn [length seq map news] in *; try lia; [reflexivity|].
    assert (Rest : map (fun i => r' (phi_reg i)) (seq (S i0) (length s1)) = news sem outv l k s s1 new).
    { apply IH; [lia| | |].
      - intros i Hi. etransitivity; [exact (Hs (S i) ltac:(lia))|]. f_equal. lia.
      - intros j m Hj. specialize (Hr (S j) m Hj). replace (i0 + S j)%nat with (S i0 + j)%nat in Hr by lia. exact Hr.
      - intros j Hj. specialize (Hn (S j) ltac:(lia)). replace (i0 + S j)%nat with (S i0 + j)%nat in Hn by lia. exact Hn. }
    rewrite Rest. pose proof (Hr 0%nat n eq_refl) as H0. pose proof (Hs 0%nat ltac:(lia)) as Hx. pose proof (Hn 0%nat ltac:(lia)) as Hn0. rewrite Nat.add_0_r in H0, Hx, Hn0. cbn [nth nth_error] in Hx, Hn0. rewrite H0.
    assert (Pe : forall j, body_regs sem outv k l s (phi_reg j) = nth j s 0).
    { intros j. unfold body_regs, phi_reg. replace (N.even (2 * N.of_nat j)) with true by (symmetry; apply N.even_spec; exists (N.of_nat j); reflexivity). f_equal. replace (2 * N.of_nat j / 2) with (N.of_nat j) by (rewrite N.mul_comm, N.div_mul; lia). apply Nat2N.id. }
    destruct n as [v|]; cbn [out_reg]; [|rewrite Pe, Hx; reflexivity]. rewrite Act. f_equal.
    assert (Od : body_regs sem outv k l s (2 * N.of_nat i0 + 1) = eval sem outv k s (v_expr v)).
    { unfold body_regs. replace (N.even (2 * N.of_nat i0 + 1)) with false by (symmetry; rewrite N.add_comm, N.even_add_mul_2; reflexivity).
      replace ((2 * N.of_nat i0 + 1) / 2) with (N.of_nat i0) by lia. rewrite Nat2N.id, Hn0. reflexivity. }
    destruct (v_expr v) as [x0|j|j|o args] eqn:Ev; try (rewrite Od; reflexivity). rewrite Pe. reflexivity. }
  apply (G (l_new l) s 0%nat).
  - rewrite (ag_new _ _ _ _ A), shape_length; [lia|apply (ag_len _ _ _ _ A)].
  - intros i _. reflexivity.
  - intros j n Hj. apply V; [|reflexivity|reflexivity]. apply pairs_in. exists j, n. repeat split. exact Hj.
  - intros j _. reflexivity.
Qed.
Lemma run_thread_ok (via16 : bool) (b8 : N -> bool) l el outs init k : agrees l el outs init -> (forall p, In p (pairs 0 (l_new l)) -> b8 (fst p) = b8 (snd p)) -> forall fuel s, keeps el (init k) s ->
  run_thread sem outv via16 b8 fuel l k s = while fuel (F k) s /\ forall r, while fuel (F k) s = Some r -> keeps el (init k) r.
Proof.
  intros A Hb. induction fuel as [|fuel IH]; intros s Ks; cbn [run_thread while]; [split; [reflexivity|discriminate]|].
  destruct (ag_step _ _ _ _ A k s Ks) as (A1 & _ & A3). rewrite A1. destruct (fst (F k s)) eqn:Fa; [|split; [reflexivity|intros r H; injection H as <-; assumption]].
  destruct (thread_step via16 b8 l el outs init k s A Hb Ks Fa) as (m & R & M). rewrite R. cbn [bind]. rewrite M. exact (IH _ A3).
Qed.
Lemma exec_thread_ok llvm optimize (body : recorder K) outer l via16 b8 fuel k : faithful sem outv (length outer) body F -> Forall (closed sem outv) outer ->
  record_loop expr_eq llvm optimize body outer = Some l -> (forall p, In p (pairs 0 (l_new l)) -> b8 (fst p) = b8 (snd p)) ->
  exec_thread sem outv via16 b8 fuel l outer k = while fuel (F k) (start sem outv outer k).
Proof.
  intros Ff Co R Hb. destruct (record_agrees llvm optimize body outer l Ff Co R) as (el & outs & Le & A).
  assert (K0 : keeps el (start sem outv outer k) (start sem outv outer k)) by (apply keeps_refl; unfold start; rewrite map_length; now rewrite Le).
  destruct (run_thread_ok via16 b8 l el outs (start sem outv outer) k A Hb fuel _ K0) as [E Ks]. unfold exec_thread. rewrite E.
  destruct (while fuel (F k) (start sem outv outer k)) as [r|] eqn:Ew; [|reflexivity]. cbn [bind]. f_equal. rewrite (ag_new _ _ _ _ A). apply outs_of_ok; [exact (Ks r eq_refl)|apply (ag_len _ _ _ _ A)].
Qed.
End Proofs.
