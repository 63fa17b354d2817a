(** Interleaved updates. *)
From Verif Require Import Base Bits Par_Model Red_Model Red_Spec Red_Proofs Red_Laws Sred_Model Sred_Spec Sred_Proofs.
Local Open Scope N_scope.

Section Machine.
Context {V : Type}.
Variable ok : V -> Prop.
Variables (op : V -> V -> V) (ident : V) (skip : V -> V -> bool).
Hypothesis E : exact_op ok op ident.
Hypothesis Skip : forall a v, ok a -> ok v -> skip a v = true -> op a v = a.
Notation memory := (Sred_Model.memory (V := V)).
Notation thread := (Sred_Model.thread (V := V)).
Implicit Types (t : thread) (ts : list thread) (m : memory).

Lemma fold_perm_from xs ys a : Permutation xs ys -> Forall ok xs -> ok a -> fold_left op xs a = fold_left op ys a.
Proof.
  intros P F A. rewrite (fold_from ok op ident E xs) by assumption. rewrite (fold_from ok op ident E ys); [|eapply Permutation_Forall; eassumption|assumption].
  f_equal. now apply (fold_perm ok op ident E).
Qed.

(** Values that have not been combined yet *)
Definition pending ts (b : N) : list V := flat_map (fun t => at_addr b (th_todo t)) ts.
Definition t_ok t : Prop := Forall (fun u => ok (snd u)) (th_todo t).
Definition addrs t : list N := map fst (th_todo t).
Definition phase_ok (h : how) t m : Prop :=
  match th_phase t with
  | Ready => True
  | Rmw => th_todo t <> []
  | Write before => h = HPlain /\ match th_todo t with (a, _) :: _ => before = m a | [] => False end
  end.
Definition disjoint ts : Prop := forall i j ti tj a, i <> j -> nth_error ts i = Some ti -> nth_error ts j = Some tj -> In a (addrs ti) -> ~ In a (addrs tj).

Lemma pending_set : forall ts i t t' b, nth_error ts i = Some t ->
  exists l r, pending ts b = l ++ at_addr b (th_todo t) ++ r /\ pending (set_nth i t' ts) b = l ++ at_addr b (th_todo t') ++ r.
Proof.
  induction ts as [|x ts IH]; intros i t t' b H; destruct i as [|i]; try discriminate.
  - injection H as ->. exists [], (pending ts b). split; reflexivity.
  - destruct (IH i t t' b H) as (l & r & H1 & H2). exists (at_addr b (th_todo x) ++ l), r. cbn [set_nth pending flat_map]. fold (pending ts b). fold (pending (set_nth i t' ts) b). rewrite H1, H2, <- !app_assoc. split; reflexivity.
Qed.
Lemma pending_same ts i t t' b : nth_error ts i = Some t -> th_todo t' = th_todo t -> pending (set_nth i t' ts) b = pending ts b.
Proof. intros H Eq. destruct (pending_set ts i t t' b H) as (l & r & -> & ->). now rewrite Eq. Qed.
Lemma pending_pop ts i t t' b a v : nth_error ts i = Some t -> th_todo t = (a, v) :: th_todo t' ->
  Permutation (pending ts b) ((if a =? b then [v] else []) ++ pending (set_nth i t' ts) b).
Proof.
  intros H Eq. destruct (pending_set ts i t t' b H) as (l & r & -> & ->). rewrite Eq, at_cons, <- app_assoc. apply Permutation_app_swap_app.
Qed.
Lemma nth_set ts i j t x : nth_error (set_nth i t ts) j = Some x -> (i = j /\ x = t) \/ (i <> j /\ nth_error ts j = Some x).
Proof.
  intros H. destruct (Nat.eq_dec i j) as [->|Ne].
  - left. split; [reflexivity|]. assert (L : (j < length (set_nth j t ts))%nat) by (apply nth_error_Some; congruence). rewrite set_nth_length in L.
    rewrite nth_error_set_nth_eq in H by assumption. congruence.
  - right. split; [assumption|]. now rewrite nth_error_set_nth_neq in H.
Qed.

Record inv (h : how) ts m : Prop := {
  i_ok : forall i t, nth_error ts i = Some t -> t_ok t;
  i_mem : forall b, ok (m b);
  i_phase : forall i t, nth_error ts i = Some t -> phase_ok h t m;
  i_disj : h = HPlain -> disjoint ts
}.
Lemma pending_ok h ts m b : inv h ts m -> Forall ok (pending ts b).
Proof.
  intros I. apply Forall_flat_map, Forall_forall. intros t Ht. apply In_nth_error in Ht as [i Hi]. pose proof (i_ok _ _ _ I i t Hi) as O'.
  unfold at_addr. apply Forall_map, Forall_forall. intros u Hu. apply filter_In in Hu as [Hu _]. unfold t_ok in O'. rewrite Forall_forall in O'. now apply O'.
Qed.
Lemma disjoint_pop ts i t t' : disjoint ts -> nth_error ts i = Some t -> (forall a, In a (addrs t') -> In a (addrs t)) -> disjoint (set_nth i t' ts).
Proof.
  intros D Ht Sub x y tx ty a Ne Hx Hy Ia Ib. apply nth_set in Hx as [[<- ->]|[Nx Hx]]; apply nth_set in Hy as [[<- ->]|[Ny Hy]].
  - congruence.
  - exact (D i y t ty a Ne Ht Hy (Sub a Ia) Ib).
  - exact (D x i tx t a Ne Hx Ht Ia (Sub a Ib)).
  - exact (D x y tx ty a Ne Hx Hy Ia Ib).
Qed.

(** A step does not change the outcome *)
Lemma step_ok h ts m i t t' m' : inv h ts m -> nth_error ts i = Some t -> step op skip h t m = (t', m') ->
  inv h (set_nth i t' ts) m' /\ forall b, fold_left op (pending (set_nth i t' ts) b) (m' b) = fold_left op (pending ts b) (m b).
Proof.
  intros I Ht St. pose proof (i_ok _ _ _ I i t Ht) as Ot. pose proof (i_phase _ _ _ I i t Ht) as Pt. unfold step in St. unfold t_ok in Ot. unfold phase_ok in Pt.
  destruct (th_todo t) as [|[a v] rest] eqn:Td.
  { injection St as <- <-. assert (Es : set_nth i t ts = ts).
    { revert Ht. clear. revert ts. induction i as [|i IH]; intros [|x ts] H; try discriminate; cbn [set_nth]; [now injection H as ->|]. f_equal. now apply IH. }
    rewrite Es. split; [exact I|reflexivity]. }
  inversion Ot as [|? ? Ov Or]; subst. cbn [snd] in Ov.
  (* combine and continue *)
  assert (Pop : forall x, x = op (m a) v -> inv h (set_nth i {| th_todo := rest; th_phase := Ready |} ts) (mset m a x) /\
      forall b, fold_left op (pending (set_nth i {| th_todo := rest; th_phase := Ready |} ts) b) (mset m a x b) = fold_left op (pending ts b) (m b)).
  { intros x ->. assert (Oa : ok (op (m a) v)) by (apply E; [apply I|assumption]). split.
    - constructor.
      + intros j tj Hj. apply nth_set in Hj as [[_ ->]|[_ Hj]]; [exact Or|now apply (i_ok _ _ _ I j)].
      + intros b. unfold mset. destruct (b =? a); [assumption|apply I].
      + intros j tj Hj. apply nth_set in Hj as [[_ ->]|[Ne Hj]]; [exact Logic.I|]. pose proof (i_phase _ _ _ I j tj Hj) as Pj. unfold phase_ok in *.
        destruct (th_phase tj); [exact Logic.I|assumption|]. destruct Pj as [Hh Pj]. split; [assumption|]. destruct (th_todo tj) as [|[a' v'] r'] eqn:Tj; [assumption|].
        unfold mset. destruct (N.eqb_spec a' a) as [->|]; [exfalso|assumption].
        apply (i_disj _ _ _ I Hh i j t tj a Ne Ht Hj); unfold addrs; [rewrite Td|rewrite Tj]; now left.
      + intros Hh. eapply disjoint_pop; [now apply (i_disj _ _ _ I)|exact Ht|]. unfold addrs. rewrite Td. intros y Hy. now right.
    - intros b. rewrite (fold_perm_from _ _ (m b) (pending_pop ts i t {| th_todo := rest; th_phase := Ready |} b a v Ht Td)); [|now apply (pending_ok h ts m)|apply I].
      unfold mset. rewrite (N.eqb_sym b a). destruct (N.eqb_spec a b) as [->|]; reflexivity. }
  (* the todo list stays *)
  assert (Stay : forall p, phase_ok h {| th_todo := (a, v) :: rest; th_phase := p |} m ->
      inv h (set_nth i {| th_todo := (a, v) :: rest; th_phase := p |} ts) m /\
      forall b, fold_left op (pending (set_nth i {| th_todo := (a, v) :: rest; th_phase := p |} ts) b) (m b) = fold_left op (pending ts b) (m b)).
  { intros p Hp. split.
    - constructor.
      + intros j tj Hj. apply nth_set in Hj as [[_ ->]|[_ Hj]]; [exact Ot|now apply (i_ok _ _ _ I j)].
      + apply I.
      + intros j tj Hj. apply nth_set in Hj as [[_ ->]|[Ne Hj]]; [exact Hp|exact (i_phase _ _ _ I j tj Hj)].
      + intros Hh. eapply disjoint_pop; [now apply (i_disj _ _ _ I)|exact Ht|]. unfold addrs. rewrite Td. auto.
    - intros b. rewrite (pending_same ts i t) by (assumption || (symmetry; exact Td)). reflexivity. }
  destruct (th_phase t) as [| |before] eqn:Ph.
  - destruct h.
    + injection St as <- <-. apply Pop. reflexivity.
    + destruct (skip (m a) v) eqn:Sk; injection St as <- <-.
      * assert (Eq : op (m a) v = m a) by (apply Skip; auto; apply I). destruct (Pop _ eq_refl) as [P1 P2].
        assert (Em : forall b, mset m a (op (m a) v) b = m b) by (intros b; unfold mset; destruct (N.eqb_spec b a) as [->|]; [exact Eq|reflexivity]).
        split.
        -- constructor; [apply P1|intros b; apply I| |intros Hh; discriminate Hh]. intros j tj Hj. pose proof (i_phase _ _ _ P1 j tj Hj) as Pj. unfold phase_ok in *. destruct (th_phase tj); try assumption. destruct Pj as [Pj _]. discriminate.
        -- intros b. rewrite <- P2, Em. reflexivity.
      * apply Stay. unfold phase_ok. cbn. discriminate.
    + injection St as <- <-. apply Stay. unfold phase_ok. cbn. split; reflexivity.
  - injection St as <- <-. apply Pop. reflexivity.
  - injection St as <- <-. apply Pop. destruct Pt as [_ ->]. reflexivity.
Qed.
Lemma run_ok h : forall sched ts m ts' m', inv h ts m -> run op skip h sched ts m = (ts', m') ->
  inv h ts' m' /\ forall b, fold_left op (pending ts' b) (m' b) = fold_left op (pending ts b) (m b).
Proof.
  induction sched as [|i sched IH]; intros ts m ts' m' I R; cbn [run] in R.
  { injection R as <- <-. split; [exact I|reflexivity]. }
  destruct (nth_error ts i) as [t|] eqn:Ht; [|now apply IH]. destruct (step op skip h t m) as [t1 m1] eqn:St.
  destruct (step_ok h ts m i t t1 m1 I Ht St) as [I1 H1]. destruct (IH _ _ _ _ I1 R) as [I2 H2]. split; [exact I2|]. intros b. now rewrite H2, H1.
Qed.
Lemma run_start h sched (todos : list (list (N * V))) m ts' m' :
  Forall (Forall (fun u => ok (snd u))) todos -> (forall b, ok (m b)) -> (h = HPlain -> disjoint (map start todos)) ->
  run op skip h sched (map start todos) m = (ts', m') -> Forall finished ts' ->
  forall b, m' b = fold_left op (flat_map (at_addr b) todos) (m b).
Proof.
  intros Ho Hm Hd R F b. assert (I : inv h (map start todos) m).
  { constructor.
    - intros i t Hi. apply nth_error_In, in_map_iff in Hi as (x & <- & Hx). rewrite Forall_forall in Ho. exact (Ho x Hx).
    - exact Hm.
    - intros i t Hi. apply nth_error_In, in_map_iff in Hi as (x & <- & Hx). exact Logic.I.
    - exact Hd. }
  destruct (run_ok h sched _ _ _ _ I R) as [_ H]. specialize (H b).
  assert (P0 : pending ts' b = []).
  { clear -F. induction F as [|t ts Ht _ IH]; [reflexivity|]. cbn [pending flat_map]. fold (pending ts b). rewrite IH, Ht. reflexivity. }
  rewrite P0 in H. cbn [fold_left] in H. rewrite H. f_equal. unfold pending. rewrite flat_map_concat_map, map_map, <- flat_map_concat_map. reflexivity.
Qed.

(** Steps end *)
Definition work_left t : nat := 2 * length (th_todo t) - match th_phase t with Ready => 0 | _ => 1 end.
Lemma step_work h t m : (th_todo t <> [] -> (work_left (fst (step op skip h t m)) < work_left t)%nat) .
Proof using. clear -t m.
  intros Ne. unfold step, work_left. destruct (th_todo t) as [|[a v] rest] eqn:Td; [congruence|]. destruct (th_phase t); [destruct h; [|destruct (skip (m a) v)|]| |]; cbn [fst th_todo th_phase length]; rewrite ?Td; cbn [length]; lia.
Qed.
End Machine.

(** ** All threads *)
Section All.
Context {V : Type}.
Variable w : N.
Variable ok : V -> Prop.
Variables (op : V -> V -> V) (ident : V) (differs : V -> V -> bool) (skip : V -> V -> bool) (shift base count : N).
Hypothesis E : exact_op ok op ident.
Hypothesis Dif : forall v, ok v -> differs ident v = false -> v = ident.
Hypothesis Skip : forall a v, ok a -> ok v -> skip a v = true -> op a v = a.
Notation block := (block (V := V)).

Definition block_ok (b : block) : Prop :=
  (forall k, k < w -> ok (b_val b k)) /\ (exists idx, array_block w base shift count b idx) /\ (no_zero w shift b \/ unmasked w b).
Hypothesis Hcount : count <= 2 ^ 32.
Hypothesis Hbase : base mod 2 ^ shift = 0.

Lemma lo_at i : u32 (N.shiftr (base + 2 ^ shift * i) shift) = (base / 2 ^ shift + i) mod 2 ^ 32.
Proof.
  rewrite N.shiftr_div_pow2. assert (P : 2 ^ shift <> 0) by (apply N.pow_nonzero; discriminate). rewrite (N.mul_comm (2 ^ shift)), N.div_add by assumption. reflexivity.
Qed.
Lemma lo_zero x : u32 (N.shiftr x shift) = 0 -> x mod 2 ^ shift = 0 -> x mod 2 ^ (32 + shift) = 0.
Proof.
  unfold u32. rewrite N.shiftr_div_pow2. intros H1 H2. rewrite N.add_comm, N.pow_add_r. assert (P : 2 ^ shift <> 0) by (apply N.pow_nonzero; discriminate).
  rewrite N.mod_mul_r by (assumption || (apply N.pow_nonzero; discriminate)). rewrite H1, H2. lia.
Qed.
Lemma kernel_ok md (b : block) : block_ok b -> exists us, kernel w op ident differs shift md b = Some us /\
  (forall a, fold_left op (at_addr a us) ident = fold_left op (contribs w b a) ident) /\
  Forall (fun u => ok (snd u)) us /\ (forall p, In p (map fst us) -> exists k, k < w /\ N.testbit (b_active b) k = true /\ p = b_ptr b k).
Proof.
  intros (Vok & (idx & Ar) & Z).
  assert (L : exists us, local w op ident differs shift (S (N.to_nat w)) (b_ptr b) (b_val b) (b_active b) = Some us /\
    (forall a, fold_left op (at_addr a us) ident = fold_left op (contribs w b a) ident) /\
    Forall (fun u => ok (snd u)) us /\ (forall p, In p (map fst us) -> exists k, k < w /\ N.testbit (b_active b) k = true /\ p = b_ptr b k)).
  { destruct (local_ok w ok op ident differs shift E Dif b Vok) as (us & Eq & Hs & Hu).
    - intros k k' Bk Bk' Ak Ak'. destruct (Ar k Bk Ak) as [Ik ->]. destruct (Ar k' Bk' Ak') as [Ik' ->]. rewrite !lo_at. intros H. f_equal. f_equal.
      pose proof (N.div_mod (base / 2 ^ shift + idx k) (2 ^ 32) ltac:(discriminate)) as D1. pose proof (N.div_mod (base / 2 ^ shift + idx k') (2 ^ 32) ltac:(discriminate)) as D2.
      rewrite H in D1. set (q := (base / 2 ^ shift + idx k) / 2 ^ 32) in *. set (q' := (base / 2 ^ shift + idx k') / 2 ^ 32) in *. set (r := _ mod 2 ^ 32) in *.
      set (z := base / 2 ^ shift) in *. clearbody q q' r z. clear -D1 D2 Ik Ik' Hcount. destruct (N.lt_total q q') as [Lt|[Eq|Gt]]; [exfalso|subst q'; lia|exfalso].
      + assert (2 ^ 32 * (q + 1) <= 2 ^ 32 * q') by (apply N.mul_le_mono_l; lia). lia.
      + assert (2 ^ 32 * (q' + 1) <= 2 ^ 32 * q) by (apply N.mul_le_mono_l; lia). lia.
    - intros k k' Bk Bk' Ak Ak' H0. destruct Z as [Z|Z]; [|rewrite (Z k' Bk') in Ak'; discriminate]. apply (Z k Bk Ak). apply lo_zero; [exact H0|].
      destruct (Ar k Bk Ak) as [_ ->]. rewrite N.mul_comm, N.mod_add by (apply N.pow_nonzero; discriminate). exact Hbase.
    - exists us. split; [exact Eq|]. split; [exact Hs|]. split; [apply Forall_forall; intros [p v] I; apply (Hu p v I)|].
      intros p I. apply in_map_iff in I as ([p' v] & <- & I). apply (Hu p' v I). }
  destruct md; cbn [kernel]; try exact L. eexists. split; [reflexivity|]. split; [intros a; now rewrite direct_ok|]. split.
  - apply Forall_forall. intros [p v] I. apply direct_addr in I as (k & Bk & _ & _ & ->). now apply Vok.
  - intros p I. apply in_map_iff in I as ([p' v] & <- & I). apply direct_addr in I as (k & Bk & Ak & -> & _). now exists k.
Qed.
Lemma fold_same xs ys xs' ys' : Forall ok xs -> Forall ok xs' -> Forall ok ys -> Forall ok ys' -> fold_left op xs ident = fold_left op xs' ident -> fold_left op ys ident = fold_left op ys' ident ->
  fold_left op (xs ++ ys) ident = fold_left op (xs' ++ ys') ident.
Proof.
  intros O1 O2 O3 O4 E1 E2. rewrite !fold_left_app, E1. rewrite (fold_from ok op ident E ys), (fold_from ok op ident E ys') by (assumption || (apply (fold_ok ok op ident E); [assumption|apply E])). now rewrite E2.
Qed.
Lemma at_ok a (us : list (N * V)) : Forall (fun u => ok (snd u)) us -> Forall ok (at_addr a us).
Proof. intros H. unfold at_addr. apply Forall_map, Forall_forall. intros u I. apply filter_In in I as [I _]. rewrite Forall_forall in H. now apply H. Qed.
Lemma contribs_ok b a : block_ok b -> Forall ok (contribs w b a).
Proof. intros (Vok & _). rewrite contrib_filter. apply Forall_map, Forall_forall. intros k I. apply filter_In in I as [I _]. apply Vok. now apply in_lanes. Qed.
Lemma program_ok md bs : Forall block_ok bs -> exists us, program w op ident differs shift md bs = Some us /\
  (forall a, fold_left op (at_addr a us) ident = fold_left op (flat_map (fun b => contribs w b a) bs) ident) /\
  Forall (fun u => ok (snd u)) us /\ (forall p, In p (map fst us) -> exists b k, In b bs /\ k < w /\ N.testbit (b_active b) k = true /\ p = b_ptr b k).
Proof.
  induction 1 as [|b bs Hb HF IH]; cbn [program]; [exists []; repeat split; auto; intros ? []|].
  destruct (kernel_ok md b Hb) as (us & -> & H1 & H2 & H3). destruct IH as (vs & -> & G1 & G2 & G3). cbn [bind]. exists (us ++ vs). split; [reflexivity|].
  split; [|split].
  - intros a. rewrite at_app. cbn [flat_map]. apply fold_same; auto using at_ok, contribs_ok.
    apply Forall_flat_map, Forall_forall. intros b' I. apply contribs_ok. rewrite Forall_forall in HF. now apply HF.
  - apply Forall_app. split; assumption.
  - intros p I. rewrite map_app in I. apply in_app_iff in I as [I|I].
    + destruct (H3 p I) as (k & Hk). exists b, k. split; [now left|exact Hk].
    + destruct (G3 p I) as (b' & k & Ib & Hk). exists b', k. split; [now right|exact Hk].
Qed.
Fixpoint programs (md : mode) (work : list (list block)) : option (list (list (N * V))) :=
  match work with
  | [] => Some []
  | bs :: work => let? us := program w op ident differs shift md bs in let? r := programs md work in Some (us :: r)
  end.
(** No element is accessed by two threads *)
Definition separate (work : list (list block)) : Prop :=
  forall i j bi bj b b' k k', i <> j -> nth_error work i = Some bi -> nth_error work j = Some bj -> In b bi -> In b' bj ->
    k < w -> k' < w -> N.testbit (b_active b) k = true -> N.testbit (b_active b') k' = true -> b_ptr b k <> b_ptr b' k'.
Lemma programs_ok md : forall work, Forall (Forall block_ok) work -> exists todos, programs md work = Some todos /\ length todos = length work /\
  Forall (Forall (fun u => ok (snd u))) todos /\
  (forall a x, ok x -> fold_left op (flat_map (at_addr a) todos) x = fold_left op (all_contribs w work a) x) /\
  (forall i us p, nth_error todos i = Some us -> In p (map fst us) -> exists bs b k, nth_error work i = Some bs /\ In b bs /\ k < w /\ N.testbit (b_active b) k = true /\ p = b_ptr b k).
Proof.
  induction 1 as [|bs work Hb HF IH]; cbn [programs].
  { exists []. repeat split; auto. intros [|i] ? ? H; discriminate H. }
  destruct (program_ok md bs Hb) as (us & -> & H1 & H2 & H3). destruct IH as (todos & -> & Gl & G0 & G1 & G2). cbn [bind]. exists (us :: todos). split; [reflexivity|].
  split; [cbn [length]; now f_equal|]. split; [now constructor|]. split.
  - intros a x Hx. cbn [flat_map all_contribs]. fold (all_contribs w work a).
    assert (O1 : Forall ok (flat_map (at_addr a) todos)) by (apply Forall_flat_map; eapply Forall_impl; [|exact G0]; intros u Hu; now apply at_ok).
    assert (O2 : Forall ok (flat_map (fun b => contribs w b a) bs)) by (apply Forall_flat_map; eapply Forall_impl; [|exact Hb]; intros b' Hb'; now apply contribs_ok).
    assert (O3 : Forall ok (all_contribs w work a)).
    { apply Forall_flat_map. eapply Forall_impl; [|exact HF]. intros l Hl. apply Forall_flat_map. eapply Forall_impl; [|exact Hl]. intros b' Hb'. now apply contribs_ok. }
    rewrite (fold_from ok op ident E (_ ++ _)), (fold_from ok op ident E (flat_map (fun b => contribs w b a) bs ++ _)); try (apply Forall_app; split; auto using at_ok); try assumption.
    f_equal. apply fold_same; auto using at_ok. apply G1, E.
  - intros [|i] us' p Hi Ip; cbn [nth_error] in *.
    + injection Hi as <-. destruct (H3 p Ip) as (b & k & H). exists bs, b, k. split; [reflexivity|exact H].
    + exact (G2 i us' p Hi Ip).
Qed.
Theorem reduce_ok md minmax work sched todos m ts' m' : Forall (Forall block_ok) work -> (forall a, ok (m a)) -> (md = NoConflicts -> separate work) ->
  programs md work = Some todos -> run op skip (how_of md minmax) sched (map start todos) m = (ts', m') -> Forall finished ts' ->
  forall a, m' a = fold_left op (all_contribs w work a) (m a).
Proof.
  intros HF Hm Sep Ep R F a. destruct (programs_ok md work HF) as (todos' & Ep' & _ & G0 & G1 & G2). rewrite Ep in Ep'. injection Ep' as <-.
  rewrite <- G1 by apply Hm. apply (run_start ok op ident skip E Skip (how_of md minmax) sched todos m ts' m' G0 Hm); auto.
  intros Hh. assert (md = NoConflicts) by (destruct md, minmax; (reflexivity || discriminate)). specialize (Sep H).
  intros i j ti tj p Ne Hi Hj Ii Ij. rewrite nth_error_map in Hi, Hj. destruct (nth_error todos i) as [ui|] eqn:Ui; [|discriminate]. destruct (nth_error todos j) as [uj|] eqn:Uj; [|discriminate].
  injection Hi as <-. injection Hj as <-. destruct (G2 i ui p Ui Ii) as (bi & b & k & Hbi & Ib & Bk & Ak & Pk). destruct (G2 j uj p Uj Ij) as (bj & b' & k' & Hbj & Ib' & Bk' & Ak' & Pk').
  apply (Sep i j bi bj b b' k k' Ne Hbi Hbj Ib Ib' Bk Bk' Ak Ak'). congruence.
Qed.
End All.

(** ** Every thread finishes once it has made enough steps *)
Section Ends.
Context {V : Type}.
Variables (op : V -> V -> V) (skip : V -> V -> bool).
Lemma run_ends h i : forall sched ts (m : memory (V := V)) ts' m' t, run op skip h sched ts m = (ts', m') -> nth_error ts i = Some t ->
  exists t', nth_error ts' i = Some t' /\ ((work_left t <= count_occ Nat.eq_dec sched i)%nat -> finished t') .
Proof.
  assert (Z : forall t : thread (V := V), work_left t = 0%nat -> th_todo t = [] \/ (length (th_todo t) = 0)%nat).
  { intros t H. unfold work_left in H. destruct (th_todo t) as [|x l]; [now left|]. cbn [length] in H. destruct (th_phase t); lia. }
  assert (G : forall sched ts (m : memory (V := V)) ts' m' t, run op skip h sched ts m = (ts', m') -> nth_error ts i = Some t ->
    exists t', nth_error ts' i = Some t' /\ ((work_left t' + count_occ Nat.eq_dec sched i <= work_left t)%nat \/ th_todo t' = [])).
  { induction sched as [|j sched IH]; intros ts m ts' m' t R Ht; cbn [run count_occ] in *.
    { injection R as <- <-. exists t. split; [assumption|]. left. lia. }
    destruct (nth_error ts j) as [tj|] eqn:Hj.
    2: { destruct (Nat.eq_dec j i) as [->|]; [congruence|]. exact (IH _ _ _ _ _ R Ht). }
    destruct (step op skip h tj m) as [t1 m1] eqn:St. destruct (Nat.eq_dec j i) as [->|Ne].
    - rewrite Ht in Hj. injection Hj as <-. assert (L : (i < length ts)%nat) by (apply nth_error_Some; congruence).
      destruct (IH _ _ _ _ t1 R (nth_error_set_nth_eq i t1 ts L)) as (t' & Ht' & D). exists t'. split; [assumption|].
      destruct D as [D|D]; [|now right]. destruct (th_todo t) as [|u l] eqn:Td.
      + unfold step in St. rewrite Td in St. injection St as <- <-. right. unfold work_left in D. rewrite Td in D. cbn [length] in D.
        destruct (th_todo t') as [|x l']; [reflexivity|]. cbn [length] in D. destruct (th_phase t'), (th_phase t); lia.
      + left. pose proof (step_work op skip h t m) as S'. rewrite St, Td in S'. cbn [fst] in S'. specialize (S' ltac:(discriminate)). lia.
    - destruct (IH _ _ _ _ t R) as (t' & Ht' & D); [now rewrite nth_error_set_nth_neq by assumption|]. exists t'. split; assumption. }
  intros sched ts m ts' m' t R Ht. destruct (G sched ts m ts' m' t R Ht) as (t' & Ht' & D). exists t'. split; [assumption|]. intros C. unfold finished.
  destruct D as [D|D]; [|assumption]. destruct (Z t' ltac:(lia)) as [Z'|Z']; [assumption|]. now destruct (th_todo t').
Qed.
End Ends.
