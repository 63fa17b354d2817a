(** Execution of a getter. *)
From Verif Require Import Base Lay_Model Lay_Spec Lay_Upload Lay_Read.
From Verif Require Import Gtr_Model Gtr_Spec Gtr_Proofs.
Local Open Scope N_scope.

(** ** Values *)
Definition srcval (late : N -> bool) (h : heap) (s : src) : N :=
  match s with Absent => 0 | Lit x => x | Data i => match h i with Some v => nth 0 (contents late i v) 0 | None => 0 end end.
Definition uservalue (h : heap) (id : N) : N :=
  if id =? 0 then 0 else match h id with Some v => match entry v 0 with Some x => x | None => 0 end | None => 0 end.
Lemma uservalue_fl h h' id : fl h h' -> uservalue h' id = uservalue h id.
Proof.
  intros F. unfold uservalue. destruct (id =? 0); [reflexivity|]. destruct (h id) as [v|] eqn:E; [|rewrite (fl_iff _ _ _ F E); reflexivity].
  destruct (fl_var _ _ _ _ F E) as [->| ->]; [reflexivity|rewrite settle_entry; reflexivity].
Qed.
Lemma heap_fl h h' : fl h h' -> heap_ok h -> heap_ok h'.
Proof.
  intros F OK i v E. destruct (h i) as [u|] eqn:EH; [|rewrite (fl_iff _ _ _ F EH) in E; discriminate].
  destruct (OK i u EH) as (A & B & C & D & N0). destruct (fl_var _ _ _ _ F EH) as [X|X]; rewrite X in E; injection E as <-; [exact (conj A (conj B (conj C (conj D N0))))|].
  unfold var_ok. cbn [settle v_size v_lit v_new v_node v_ty v_data]. split; [exact A|]. split; [intros x L; split; [eapply B; eauto|reflexivity]|]. split; [reflexivity|]. split; [|discriminate].
  intros L. destruct (v_new u) as [d|] eqn:EN; [apply N0; reflexivity|apply D; exact L].
Qed.
Lemma collect_ok ty b : forall ids h h1 ss, heap_ok h -> collect h ty b ids = Some (h1, ss) ->
  fl h h1 /\ Forall2 (fun id s => uservalue h id < N.max 1 (limit ty) /\ forall late hh, fl h1 hh -> srcval late hh s = uservalue h id) ids ss.
Proof.
  induction ids as [|i ids IH]; intros h h1 ss OK E; cbn [collect] in E; [injection E as <- <-; split; [apply fl_refl|constructor]|].
  destruct (N.eqb_spec i 0) as [Z|NZ].
  - destruct (collect h ty b ids) as [[h2 s2]|] eqn:E2; cbn [bind fst snd] in E; [|discriminate]. injection E as <- <-.
    destruct (IH _ _ _ OK E2) as [F FA]. split; [exact F|]. constructor; [|exact FA]. unfold uservalue. rewrite Z. change (0 =? 0) with true. cbv iota. split; [lia|reflexivity].
  - destruct (h i) as [v|] eqn:EV; cbn [bind] in E; [|discriminate].
    destruct (N.eqb_spec (v_size v) 1) as [S1|]; cbn [negb] in E; [|discriminate].
    destruct (N.eqb_spec (v_ty v) ty) as [T|]; cbn [negb] in E; [|discriminate].
    destruct (bk_eqb (v_bk v) b); cbn [negb] in E; [|discriminate].
    pose proof (OK i v EV) as (A & B & C & D & N0). apply N.eqb_neq in NZ.
    destruct (v_lit v) as [x|] eqn:EL.
    + destruct (collect h ty b ids) as [[h2 s2]|] eqn:E2; cbn [bind fst snd] in E; [|discriminate]. injection E as <- <-.
      destruct (IH _ _ _ OK E2) as [F FA]. split; [exact F|]. constructor; [|exact FA].
      assert (U : uservalue h i = x) by (unfold uservalue; rewrite NZ, EV; unfold entry; rewrite EL, S1; reflexivity). rewrite U. destruct (B x eq_refl) as [BX _]. rewrite T in BX. split; [lia|reflexivity].
    + set (hx := if dirty v || v_node v then flush h else h) in *.
      assert (FX : fl h hx) by (unfold hx; destruct (_ || _); [apply fl_flush|apply fl_refl]).
      destruct (collect hx ty b ids) as [[h2 s2]|] eqn:E2; cbn [bind fst snd] in E; [|discriminate]. injection E as <- <-.
      destruct (IH _ _ _ (heap_fl _ _ FX OK) E2) as [F FA]. split; [eapply fl_trans; eauto|].
      assert (VX : exists u, hx i = Some u /\ v_new u = None /\ v_data u = match v_new v with Some d => d | None => v_data v end).
      { unfold hx. destruct (dirty v) eqn:ED; cbn [orb].
        - exists (settle v). unfold flush. rewrite EV. auto.
        - assert (NN : v_new v = None) by (unfold dirty in ED; destruct (v_new v); [discriminate|reflexivity]). rewrite NN.
          destruct (v_node v); [exists (settle v); unfold flush; rewrite EV; cbn; rewrite NN; auto|exists v; rewrite EV; auto]. }
      destruct VX as (u & EU & NU & DU).
      assert (U : exists x, entry v 0 = Some x /\ x < limit ty /\ nth_error (v_data u) 0 = Some x).
      { unfold entry. rewrite EL, S1. cbn. rewrite DU. destruct (v_new v) as [d|] eqn:EN.
        - destruct (N0 d eq_refl) as [LEN FO]. destruct d as [|x d]; [cbn in LEN; lia|]. exists x. inversion_clear FO. rewrite T in H. cbn. auto.
        - destruct (D eq_refl) as [LEN FO]. destruct (v_data v) as [|x d]; [cbn in LEN; lia|]. exists x. inversion_clear FO. rewrite T in H. cbn. auto. }
      destruct U as (x & EX & LX & DX). assert (UV : uservalue h i = x) by (unfold uservalue; rewrite NZ, EV, EX; reflexivity).
      constructor; [rewrite UV; split; [lia|]|].
      * intros late hh FH. cbn [srcval]. assert (CU : dirty u = false) by (unfold dirty; rewrite NU; reflexivity). destruct (clean_contents late i u CU) as [C1 C2].
        destruct (fl_var hx hh i u (fl_trans _ _ _ F FH) EU) as [->| ->]; [rewrite C1|rewrite C2]; apply nth_error_nth with (d := 0) in DX; exact DX.
      * clear - FA FX. induction FA as [|id s ids ss H FA IH]; [constructor|]. constructor; [|exact IH]. rewrite <- (uservalue_fl _ _ id FX). exact H.
Qed.

(** ** Loads *)
Lemma bytes_number m : forall n a, bytes m a n = number (read m a n).
Proof. induction n; intros a; cbn [bytes read number]; [reflexivity|]. rewrite IHn. reflexivity. Qed.
Lemma row_length late h t s : N.of_nat (length (row late h t s)) = t.
Proof. unfold row. rewrite le_bytes_length. apply N2Nat.id. Qed.
Lemma table_read data llvm alignment cap items es total es' m t vs ob db i v :
  kernel_ok data llvm alignment cap items -> upload data alignment items = (es, total) -> Permutation es es' ->
  In (IGetter t vs, ob, db) (fst (fst (assemble items 0 0))) -> Forall (fun v => N.of_nat (length v) = t) vs ->
  nth_error (repeat 0 (N.to_nat t) :: vs) i = Some v ->
  read (aggregate m es') (ob + t * N.of_nat i) (N.to_nat t) = v /\ ob + t * N.of_nat i + t <= total.
Proof.
  intros OK E P I LV V.
  destruct (upload_ok data llvm alignment cap (proj1 OK) items es total OK E) as (xs & f & d & AS & TE & _ & _ & PE & A & MX & FX).
  rewrite AS in I. cbn [fst] in I. rewrite Forall_forall in FX. pose proof (FX _ I) as FI. cbn [fst snd header_bytes data_bytes] in FI.
  assert (IE : In (ob + t * N.of_nat i, v) es).
  { eapply Permutation_in; [apply Permutation_sym; exact PE|]. apply in_app_iff. left. apply in_flat_map. exists (IGetter t vs, ob, db).
    split; [exact I|]. unfold head. apply in_app_iff. right. cbn [getter_entries]. apply getter_rows_in; [|exact V].
    cbn [length]. rewrite Nat2N.inj_succ, N.mul_succ_r. lia. }
  assert (LN : N.of_nat (length v) = t).
  { destruct i as [|i]; cbn [nth_error] in V; [injection V as <-; rewrite repeat_length; apply N2Nat.id|]. rewrite Forall_forall in LV. apply LV. eapply nth_error_In; eauto. }
  pose proof (entry_read data llvm alignment cap items OK _ _ _ m _ E P IE) as R. cbn [fst snd] in R.
  destruct (entries_ok data llvm alignment cap items OK es total E) as [B _]. rewrite Forall_forall in B. specialize (B _ IE). cbn [fst snd] in B.
  rewrite LN in B. split; [|exact B]. replace (N.to_nat t) with (length v) by (rewrite <- LN, Nat2N.id; reflexivity). exact R.
Qed.

Lemma limit_bytes ty : In (tsz ty) [1; 2; 4; 8] -> N.max 1 (limit ty) <= 256 ^ tsz ty.
Proof.
  intros I. unfold limit. destruct (N.eqb_spec ty TBool) as [-> |_]; [vm_compute; discriminate|].
  replace 256 with (2 ^ 8) by reflexivity. rewrite <- N.pow_mul_r. assert (1 <= 2 ^ (8 * tsz ty)) by (apply N.lt_pred_le; apply N.neq_0_lt_0, N.pow_nonzero; lia). lia.
Qed.

Section Top.
Variables (cp : bool) (stack : option N) (h : heap) (ty : N) (values : list N) (index mask : N) (h' : heap) (g : node) (vi vm : var).
Hypothesis (G : getter cp stack h ty values index mask = Some (h', g)) (OK : heap_ok h) (EI : h index = Some vi) (EM : h mask = Some vm).
Hypothesis (CI : clean h index) (CM : clean h mask) (ST : forall t, stack = Some t -> exists v, h t = Some v /\ v_ty v = TBool /\ dirty v = false).
Let n := n_size g.
Hypothesis (SI : v_size vi = n \/ v_size vi = 1) (SM : v_size vm = n \/ v_size vm = 1) (TY : In (tsz ty) [1; 2; 4; 8]).
Variables (data : N -> list N) (llvm : bool) (alignment cap : N) (items : list item) (es es' : list Lay_Model.entry) (total : N) (m : N -> N).
Variables (late : N -> bool) (pad : N -> N -> N) (w : N) (k : nat) (header db : N).
Hypothesis (KO : kernel_ok data llvm alignment cap items) (UP : upload data alignment items = (es, total)) (PE : Permutation es es').
Hypothesis (POS : nth_error (fst (fst (assemble items 0 0))) k = Some (table late h' g, header, db)).
Hypothesis (CNT : v_bk vi = LLVM -> N.of_nat (length values) < 2 ^ 31) (EN : v_bk vi = LLVM -> ends h pad stack (N.max (v_size vi) (v_size vm)) n).

Theorem getter_ok l : l < lanes (v_bk vi) w n ->
  (l < n -> on_stack h stack (N.max (v_size vi) (v_size vm)) l = true -> entry vm l <> Some 0 -> forall i, entry vi l = Some i -> i <= N.of_nat (length values)) ->
  (l < n -> exists i q, entry vi l = Some i /\ entry vm l = Some q /\
     run w late pad h' g (aggregate m es') total header l =
       Some (expected h values (on_stack h stack (N.max (v_size vi) (v_size vm)) l) (negb (q =? 0)) i)) /\
  (n <= l -> run w late pad h' g (aggregate m es') total header l = Some 0).
Proof.
  intros LL BND. pose proof (CI vi EI) as DI. pose proof (CM vm EM) as DM.
  unfold getter in G. destruct (_ || _); [discriminate|]. rewrite EI in G. cbn [bind] in G. rewrite EM in G. cbn [bind] in G.
  destruct (v_ty vi =? TUInt32); cbn [negb] in G; [|discriminate].
  destruct (N.eqb_spec (v_ty vm) TBool) as [TM|]; cbn [negb] in G; [|discriminate].
  destruct (bk_eqb (v_bk vm) (v_bk vi)); cbn [negb] in G; [|discriminate].
  destruct (collect h ty (v_bk vi) values) as [[h1 ss]|] eqn:EC; cbn [bind fst snd] in G; [|discriminate].
  set (size := N.max (v_size vi) (v_size vm)) in *.
  destruct (mask_apply cp (v_bk vi) stack h1 mask size) as [[h2 mk]|] eqn:EA; cbn [bind fst snd] in G; [|discriminate].
  injection G as EH EG. subst h2. subst n. subst g. cbn [n_size n_bk n_ty n_index n_mask n_vals] in *.
  destruct (collect_ok ty (v_bk vi) values h h1 ss OK EC) as [F1 VS].
  set (n := N.max size (msize h' mk)) in *.
  (* the mask, in the heap after [collect] *)
  assert (OK1 := heap_fl _ _ F1 OK).
  assert (EM1 : exists u, h1 mask = Some u /\ v_ty u = TBool /\ dirty u = false /\ v_size u = v_size vm /\ forall l, entry u l = entry vm l).
  { destruct (fl_var _ _ _ _ F1 EM) as [X|X]; [exists vm; auto 10|exists (settle vm); split; [exact X|]; split; [exact TM|]; split; [reflexivity|]; split; [reflexivity|]; intros; apply settle_entry]. }
  destruct EM1 as (u & EU & TU & DU & SU & ENU).
  assert (ST1 : forall t, stack = Some t -> exists v, h1 t = Some v /\ v_ty v = TBool /\ dirty v = false).
  { intros t E. destruct (ST t E) as (v & EV & T & D). destruct (fl_var _ _ _ _ F1 EV) as [X|X]; [exists v|exists (settle v)]; auto. }
  assert (OS : forall l, on_stack h1 stack size l = on_stack h stack size l).
  { intros l0. unfold on_stack. destruct stack as [t|]; [|reflexivity]. destruct (h t) as [v|] eqn:EV; [|rewrite (fl_iff _ _ _ F1 EV); reflexivity].
    destruct (fl_var _ _ _ _ F1 EV) as [->| ->]; [reflexivity|]. cbn [settle v_size]. rewrite settle_entry. reflexivity. }
  assert (EN1 : v_bk vi = LLVM -> ends h1 pad stack size n).
  { intros EB t v ES EV. destruct (ST t ES) as (v0 & EV0 & _ & _). specialize (EN EB t v0 ES EV0). destruct (fl_var _ _ _ _ F1 EV0) as [X|X]; rewrite X in EV; injection EV as <-; exact EN. }
  assert (PS : 0 < size) by (unfold size; destruct (OK _ _ EI) as ((P & _) & _); lia).
  pose proof (apply_fl cp (v_bk vi) stack h1 mask size h' mk EA) as F2.
  assert (F : fl h h') by (eapply fl_trans; eauto).
  assert (SZU : v_size u = n \/ v_size u = 1) by (rewrite SU; exact SM).
  assert (USZ : v_size u <= size) by (rewrite SU; unfold size; lia).
  destruct (apply_val cp (v_bk vi) stack h1 mask size h' mk u EA OK1 EU TU ST1 w late pad h' l (fl_refl h') DU USZ PS SZU LL EN1) as [M1 M2].
  assert (LI : exists x, lane w late pad h' index l = Some x).
  { destruct (lane_some w late pad h h' index vi l n F EI (OK _ _ EI) DI SI) as [x X]; [|eauto]. unfold lanes in LL. destruct (is_llvm (v_bk vi)); auto. }
  unfold run. cbn [n_index n_bk n_mask n_size n_ty]. destruct LI as [x LI]. rewrite LI. cbn [bind].
  split; intros L; [|pose proof (M2 L) as MF; fold n in MF; rewrite MF; reflexivity].
  destruct (lane_in w late pad h h' index vi l F EI (OK _ _ EI) DI) as (LX & i & EX & _); [destruct SI as [-> | ->]; auto|].
  rewrite LX, EX in LI. injection LI as <-.
  destruct (lane_in w late pad h h' mask vm l F EM (OK _ _ EM) DM) as (_ & q & EQ & _); [destruct SM as [-> | ->]; auto|].
  exists i, q. split; [exact EX|]. split; [exact EQ|].
  pose proof (M1 L) as MV. fold n in MV. rewrite ENU, EQ, OS in MV. rewrite MV. cbn [bind].
  unfold expected. destruct (on_stack h stack size l) eqn:EON; cbn [andb]; [|reflexivity].
  destruct (N.eqb_spec q 0) as [|NQ]; cbn [negb andb]; [reflexivity|].
  specialize (BND L eq_refl ltac:(rewrite EQ; congruence) i EX).
  (* the load *)
  set (t := tsz ty) in *.
  assert (ROW : exists v, nth_error (repeat 0 (N.to_nat t) :: map (row late h' t) ss) (N.to_nat i) = Some v /\
            number v = (if i =? 0 then 0 else uservalue h (nth (N.to_nat (i - 1)) values 0)) /\ number v < N.max 1 (limit ty)).
  { destruct (N.eqb_spec i 0) as [-> |NI].
    - exists (repeat 0 (N.to_nat t)). split; [reflexivity|]. assert (Z : number (repeat 0 (N.to_nat t)) = 0) by (induction (N.to_nat t) as [|z IHz]; cbn; [reflexivity|rewrite IHz; reflexivity]). rewrite Z. split; [reflexivity|lia].
    - destruct (N.to_nat i) as [|j] eqn:EJ; [lia|]. cbn [nth_error]. assert (JL : (j < length values)%nat) by lia.
      replace (N.to_nat (i - 1)) with j by lia.
      assert (X : exists s, nth_error ss j = Some s /\ uservalue h (nth j values 0) < N.max 1 (limit ty) /\ (forall late hh, fl h1 hh -> srcval late hh s = uservalue h (nth j values 0))).
      { clear - VS JL. revert j JL. induction VS as [|id s ids ss H VS IH]; intros j JL; cbn [length] in JL; [lia|]. destruct j as [|j]; cbn [nth nth_error]; [exists s; tauto|]. apply IH. lia. }
      destruct X as (s & ES & BU & SV). exists (row late h' t s). rewrite nth_error_map, ES. split; [reflexivity|].
      assert (V : number (row late h' t s) = uservalue h (nth j values 0)).
      { unfold row. change (match s with Absent => 0 | Lit x => x | Data i => match h' i with Some v => nth 0 (contents late i v) 0 | None => 0 end end) with (srcval late h' s).
        rewrite (SV late h' F2). apply number_le. rewrite N2Nat.id. pose proof (limit_bytes ty TY). fold t in H. lia. }
      rewrite V. split; [reflexivity|exact BU]. }
  destruct ROW as (v & EV & NV & LV).
  assert (LR : Forall (fun v => N.of_nat (length v) = t) (map (row late h' t) ss)) by (apply Forall_forall; intros z IZ; apply in_map_iff in IZ; destruct IZ as (s & <- & _); apply row_length).
  assert (IT : In (IGetter t (map (row late h' t) ss), header, db) (fst (fst (assemble items 0 0)))) by (eapply nth_error_In; exact POS).
  destruct (table_read data llvm alignment cap items es total es' m t _ header db (N.to_nat i) v KO UP PE IT LR EV) as [RD BD].
  rewrite N2Nat.id in RD, BD.
  assert (AD : address (v_bk vi) header t i = Z.of_N (header + t * i)).
  { unfold address. destruct (v_bk vi) eqn:EB; try lia. specialize (CNT eq_refl). destruct (N.ltb_spec i (2 ^ 31)); [lia|lia]. }
  rewrite AD. unfold load. destruct (Z.ltb_spec (Z.of_N (header + t * i)) 0); [lia|]. destruct (Z.ltb_spec (Z.of_N total) (Z.of_N (header + t * i) + Z.of_N t)); [lia|]. cbn [orb bind].
  rewrite N2Z.id, bytes_number, RD. f_equal.
  assert (RES : number v = (if negb (i =? 0) then let id := nth (N.to_nat (i - 1)) values 0 in if id =? 0 then 0 else match h id with Some v => match Gtr_Spec.entry v 0 with Some x => x | None => 0 end | None => 0 end else 0)).
  { rewrite NV. destruct (i =? 0); reflexivity. }
  transitivity (number v); [|exact RES]. destruct (N.eqb_spec ty TBool) as [TB|]; [|reflexivity].
  assert (L2 : number v < 2) by (rewrite TB in LV; vm_compute (limit TBool) in LV; lia).
  rewrite truth_bool by exact L2. destruct (N.eqb_spec (number v) 0) as [-> |]; cbn [negb]; [reflexivity|lia].
Qed.
End Top.

(** ** Checks *)
Lemma bk_eqb_eq a b : bk_eqb a b = true <-> a = b.
Proof. destruct a, b; cbn; split; congruence. Qed.
Lemma collect_iff ty b : forall ids h, (exists r, collect h ty b ids = Some r) <->
  forall id, In id ids -> id = 0 \/ exists v, h id = Some v /\ v_size v = 1 /\ v_ty v = ty /\ v_bk v = b.
Proof.
  induction ids as [|i ids IH]; intros h; [split; [intros _ id []|intros _; cbn; eauto]|]. cbn [collect].
  assert (AUX : forall h2 (s : src), fl h h2 -> ((exists r, (let? x := collect h2 ty b ids in Some (fst x, s :: snd x)) = Some r) <->
             forall id, In id ids -> id = 0 \/ exists v, h id = Some v /\ v_size v = 1 /\ v_ty v = ty /\ v_bk v = b)).
  { intros h2 s F. assert (EQ : (exists r, (let? x := collect h2 ty b ids in Some (fst x, s :: snd x)) = Some r) <-> exists r, collect h2 ty b ids = Some r).
    { destruct (collect h2 ty b ids); cbn [bind]; split; intros [r R]; try discriminate; eauto. }
    rewrite EQ, IH. split; intros H id I; (destruct (H id I) as [Z|(v & E & R)]; [left; exact Z|right]).
    - destruct (h id) as [u|] eqn:EU; [|rewrite (fl_iff _ _ _ F EU) in E; discriminate]. exists u. split; [reflexivity|]. destruct (fl_var _ _ _ _ F EU) as [X|X]; rewrite X in E; injection E as <-; exact R.
    - destruct (fl_var _ _ _ _ F E) as [X|X]; [exists v|exists (settle v)]; auto. }
  destruct (N.eqb_spec i 0) as [Z|NZ].
  - rewrite (AUX h Absent (fl_refl h)). split; intros H id I; [destruct I as [<-|I]; auto|apply H; right; exact I].
  - destruct (h i) as [v|] eqn:EV; cbn [bind].
    2:{ split; [intros [r R]; discriminate|]. intros H. destruct (H i (or_introl eq_refl)) as [?|(u & E & _)]; [contradiction|congruence]. }
    destruct (N.eqb_spec (v_size v) 1) as [S1|NS]; cbn [negb].
    2:{ split; [intros [r R]; discriminate|]. intros H. destruct (H i (or_introl eq_refl)) as [?|(u & E & R)]; [contradiction|]. rewrite EV in E. injection E as <-. tauto. }
    destruct (N.eqb_spec (v_ty v) ty) as [T|NS]; cbn [negb].
    2:{ split; [intros [r R]; discriminate|]. intros H. destruct (H i (or_introl eq_refl)) as [?|(u & E & R)]; [contradiction|]. rewrite EV in E. injection E as <-. tauto. }
    destruct (bk_eqb (v_bk v) b) eqn:EB; cbn [negb].
    2:{ split; [intros [r R]; discriminate|]. intros H. destruct (H i (or_introl eq_refl)) as [?|(u & E & R)]; [contradiction|]. rewrite EV in E. injection E as <-.
        assert (X : v_bk v = b) by tauto. apply bk_eqb_eq in X. congruence. }
    apply bk_eqb_eq in EB.
    assert (HD : i = 0 \/ exists v, h i = Some v /\ v_size v = 1 /\ v_ty v = ty /\ v_bk v = b) by (right; exists v; auto).
    destruct (v_lit v) as [x|].
    + rewrite (AUX h (Lit x) (fl_refl h)). split; intros H id I; [destruct I as [<-|I]; auto|apply H; right; exact I].
    + rewrite AUX by (destruct (_ || _); [apply fl_flush|apply fl_refl]). split; intros H id I; [destruct I as [<-|I]; auto|apply H; right; exact I].
Qed.
Lemma resize_iff h i v k : h i = Some v -> (exists r, resize h (MVar i) k = Some r) <-> v_size v = k \/ v_size v = 1 \/ exists x, v_lit v = Some x.
Proof.
  intros E. unfold resize. cbn [msize mlit]. rewrite E. destruct (N.eqb_spec (v_size v) k) as [->|N1]; [split; [auto|eauto]|].
  destruct (v_lit v) as [x|]; cbn [option_map]; [split; eauto|]. destruct (N.eqb_spec (v_size v) 1) as [->|N2]; cbn [negb].
  - split; eauto.
  - split; [intros [r R]; discriminate|intros [?|[?|[x X]]]; [contradiction|contradiction|discriminate]].
Qed.
Lemma and_default_iff cp h i v k : h i = Some v -> 0 < v_size v <= k -> (exists r, and_ cp h (MDefault k) (MVar i) = Some r) <-> v_size v = k \/ v_size v = 1.
Proof.
  intros E L. unfold and_. cbn [msize mlit mdirty same]. rewrite E. replace (N.max k (v_size v)) with k by lia. rewrite N.eqb_refl. cbn [orb negb].
  destruct ((v_size v =? k) || (v_size v =? 1)) eqn:C; cbn [negb].
  - rewrite orb_true_iff, !N.eqb_eq in C. split; [auto|]. intros _. destruct cp; [|eauto].
    destruct (v_lit v) as [x|]; cbn [option_map]; [|eauto]. destruct (negb (x =? 0)); [|eauto]. unfold resize. cbn [msize]. rewrite N.eqb_refl. eauto.
  - rewrite orb_false_iff, !N.eqb_neq in C. split; [intros [r R]; discriminate|tauto].
Qed.
Theorem checks_ok : forall cp h ty values index mask, heap_ok h ->
  (exists r, getter cp None h ty values index mask = Some r) <->
  (exists vi vm, index <> 0 /\ mask <> 0 /\ h index = Some vi /\ h mask = Some vm /\ v_ty vi = TUInt32 /\ v_ty vm = TBool /\ v_bk vm = v_bk vi /\
     (v_size vm = 1 \/ v_size vi <= v_size vm \/ (v_bk vi <> LLVM /\ exists x, v_lit vm = Some x)) /\
     forall id, In id values -> id = 0 \/ exists v, h id = Some v /\ v_size v = 1 /\ v_ty v = ty /\ v_bk v = v_bk vi).
Proof.
  intros cp h ty values index mask OK. unfold getter.
  destruct (N.eqb_spec index 0) as [Z1|N1]; cbn [orb]; [split; [intros [r R]; discriminate|intros (vi & vm & X & _); contradiction]|].
  destruct (N.eqb_spec mask 0) as [Z2|N2]; cbn [orb]; [split; [intros [r R]; discriminate|intros (vi & vm & _ & X & _); contradiction]|].
  destruct (h index) as [vi|] eqn:EI; cbn [bind]; [|split; [intros [r R]; discriminate|intros (vi & vm & _ & _ & X & _); discriminate]].
  destruct (h mask) as [vm|] eqn:EM; cbn [bind]; [|split; [intros [r R]; discriminate|intros (vi' & vm & _ & _ & _ & X & _); discriminate]].
  assert (U : forall P : var -> var -> Prop, (exists vi' vm', index <> 0 /\ mask <> 0 /\ Some vi = Some vi' /\ Some vm = Some vm' /\ P vi' vm') <-> P vi vm).
  { intros P. split; [intros (a & c & _ & _ & E1 & E2 & H); injection E1 as <-; injection E2 as <-; exact H|intros H; exists vi, vm; auto]. }
  rewrite U.
  destruct (N.eqb_spec (v_ty vi) TUInt32) as [T1|T1]; cbn [negb]; [|split; [intros [r R]; discriminate|tauto]].
  destruct (N.eqb_spec (v_ty vm) TBool) as [T2|T2]; cbn [negb]; [|split; [intros [r R]; discriminate|tauto]].
  destruct (bk_eqb (v_bk vm) (v_bk vi)) eqn:EB; cbn [negb]; [apply bk_eqb_eq in EB|split; [intros [r R]; discriminate|intros (_ & _ & X & _); apply bk_eqb_eq in X; congruence]].
  rewrite <- (collect_iff ty (v_bk vi) values h).
  destruct (collect h ty (v_bk vi) values) as [[h1 ss]|] eqn:EC; cbn [bind fst snd]; [|split; [intros [r R]; discriminate|intros (_ & _ & _ & _ & r & R); discriminate]].
  destruct (collect_ok _ _ _ _ _ _ OK EC) as [F1 _]. set (size := N.max (v_size vi) (v_size vm)).
  assert (EM1 : exists u, h1 mask = Some u /\ v_size u = v_size vm /\ v_lit u = v_lit vm).
  { destruct (fl_var _ _ _ _ F1 EM) as [X|X]; [exists vm|exists (settle vm)]; auto. }
  destruct EM1 as (u & EU & SU & LU).
  assert (PV : 0 < v_size vi /\ 0 < v_size vm) by (destruct (OK _ _ EI) as ((? & _) & _); destruct (OK _ _ EM) as ((? & _) & _); auto).
  assert (EQ : (exists r, (let? m := mask_apply cp (v_bk vi) None h1 mask size in
            Some (fst m, {| n_ty := ty; n_bk := v_bk vi; n_size := N.max size (msize (fst m) (snd m)); n_index := index; n_mask := snd m; n_vals := ss |})) = Some r) <->
          exists r, mask_apply cp (v_bk vi) None h1 mask size = Some r).
  { destruct (mask_apply _ _ _ _ _ _); cbn [bind]; split; intros [r R]; try discriminate; eauto. }
  rewrite EQ. unfold mask_apply. destruct (is_llvm (v_bk vi)) eqn:EL; cbn [bind fst snd option_map].
  - rewrite (and_default_iff cp h1 mask u size EU) by (rewrite SU; unfold size; lia). rewrite SU.
    assert (v_bk vi = LLVM) by (destruct (v_bk vi); [reflexivity|discriminate|discriminate]).
    unfold size. split; [intros [X|X]; (split; [exact T1|]; split; [exact T2|]; split; [exact EB|]; split; [|eauto]); [right; left; lia|auto]|].
    intros (_ & _ & _ & [X|[X|[X _]]] & _); [auto|left; lia|contradiction].
  - rewrite (resize_iff h1 mask u size EU), SU, LU.
    assert (v_bk vi <> LLVM) by (intros X; rewrite X in EL; discriminate).
    unfold size. split; [intros X; (split; [exact T1|]; split; [exact T2|]; split; [exact EB|]; split; [|eauto]); destruct X as [X|[X|X]]; [right; left; lia|auto|auto]|].
    intros (_ & _ & _ & [X|[X|[_ X]]] & _); [auto|left; lia|auto].
Qed.
