(** Labels and callbacks: each call does what the client expects *)
From Verif Require Import Base Lab_Model Lab_Spec Lab_Inv Lab_Free.
Local Open Scope N_scope.

(** * Texts *)
Lemma clean_name t : clean t = true <-> name t.
Proof.
  unfold clean, name, newline, slash. rewrite forallb_forall. split.
  - intros H. split; intros I1; specialize (H _ I1); discriminate H.
  - intros [H1 H2] x I1. rewrite negb_true_iff, orb_false_iff, !N.eqb_neq. split; intros ->; auto.
Qed.
Lemma full_concat p t : concat (map (fun p => p ++ [slash]) p) ++ t = full (p, t).
Proof.
  unfold full. cbn [fst snd]. induction p as [|x p IH]; [reflexivity|]. cbn [map concat fold_right].
  rewrite <- IH, <- !app_assoc. reflexivity.
Qed.
Lemma behind_none t : ~ In 47 t -> behind t = None.
Proof.
  induction t as [|c t IH]; intros H; [reflexivity|]. cbn [behind]. rewrite IH by (intros X; apply H; now right).
  unfold slash. destruct (N.eqb_spec c 47) as [->|_]; [destruct (H (or_introl eq_refl))|reflexivity].
Qed.
Lemma behind_app u t x : behind t = Some x -> behind (u ++ t) = Some x.
Proof. intros H. induction u as [|c u IH]; [exact H|]. cbn [app behind]. now rewrite IH. Qed.
Lemma behind_full p t : ~ In 47 t -> match behind (full (p, t)) with Some x => x | None => full (p, t) end = t.
Proof.
  intros H. assert (Q : p <> [] -> behind (full (p, t)) = Some t).
  { induction p as [|x p IH]; [congruence|]. intros _. change (full (x :: p, t)) with (x ++ 47 :: full (p, t)).
    apply behind_app. cbn [behind]. destruct p as [|y p].
    - change (full ([], t)) with t. now rewrite behind_none.
    - rewrite IH by discriminate. reflexivity. }
  destruct p as [|x p]; [change (full ([], t)) with t; now rewrite behind_none|]. now rewrite Q by discriminate.
Qed.
Lemma pieces_none q t : ~ In 47 t -> pieces q t = [].
Proof.
  revert q; induction t as [|c t IH]; intros q H; [reflexivity|]. cbn [pieces]. unfold slash.
  destruct (N.eqb_spec c 47) as [->|_]; [destruct (H (or_introl eq_refl))|]. apply IH. intros X; apply H; now right.
Qed.
Lemma pieces_app p : forall q r, ~ In 47 p -> pieces q (p ++ 47 :: r) = (q ++ p) :: pieces [] r.
Proof.
  induction p as [|c p IH]; intros q r H; cbn [app pieces]; [now rewrite app_nil_r|].
  unfold slash at 1. destruct (N.eqb_spec c 47) as [->|_]; [destruct (H (or_introl eq_refl))|].
  rewrite IH by (intros X; apply H; now right). now rewrite <- app_assoc.
Qed.
Lemma pieces_full p t : Forall name p -> ~ In 47 t -> pieces [] (full (p, t)) = p.
Proof.
  intros F H. induction F as [|x p N1 F IH]; [now apply pieces_none|].
  change (full (x :: p, t)) with (x ++ 47 :: full (p, t)). rewrite pieces_app by apply N1. now rewrite IH.
Qed.

Lemma isnum_number t : number t -> isnum t = Some true.
Proof.
  intros [NE F]. destruct t as [|c t]; [congruence|]. inversion F; subst. unfold isnum, schar.
  destruct (N.ltb_spec c 128); [|lia]. replace (48 <=? Z.of_N c)%Z with true; [reflexivity|]. symmetry. apply Z.leb_le. lia.
Qed.
Lemma joined_numbers l b : Forall number l -> joined b l = Some (concat (map (fun t => [91] ++ t ++ [93]) l)).
Proof.
  intros F. revert b. induction F as [|t l N1 F IH]; intros b; [reflexivity|]. cbn [joined map concat].
  rewrite (isnum_number _ N1), IH. reflexivity.
Qed.
Lemma text_means a : match a with Many l => Forall number l | _ => True end -> text a = Some (means a).
Proof. destruct a as [|t|l]; intros H; [reflexivity|reflexivity|]. unfold text, means. now rewrite joined_numbers. Qed.

Lemma fits_clean a : fits a <-> clean (match means a with Some t => t | None => [] end) = true.
Proof.
  unfold fits. rewrite clean_name. destruct (means a); [reflexivity|]. split; [|auto]. intros _. split; intros [].
Qed.

(** * Calls *)
Record CI (s : state) (c : client) : Prop := {
  ci_good : Good s (c_ext c) (c_att c) [];
  ci_pre : prefixes s = c_pre c;
  ci_names : Forall name (c_pre c);
  ci_log : log s = c_log c
}.
Lemma CI_initial : CI initial start.
Proof.
  split; [|reflexivity|constructor|reflexivity].
  assert (E : forall i, get initial i = None) by (intros [|i]; reflexivity).
  constructor; cbn [c_ext c_att start]; try (intros i v; rewrite E; discriminate); try (intros i v e; rewrite E; discriminate).
  - reflexivity.
  - intros i [].
  - constructor.
  - intros i. split; [intros []|]. intros (v & H & _). rewrite E in H. discriminate.
  - split; [constructor|intros e []].
  - intros k i. split; [intros []|intros (a & H & _); discriminate].
  - constructor.
  - discriminate.
  - discriminate.
  - exists (fun _ => 0%nat), 0%nat. intros i v. rewrite E. discriminate.
Qed.

Lemma held_get s c i : CI s c -> In i (c_ext c) -> exists v a, get s i = Some v /\ c_att c i = Some a /\ matches s v a.
Proof.
  intros H I1. destruct (get s i) as [v|] eqn:E.
  - destruct (g_att _ _ _ _ (ci_good _ _ H) _ _ E) as (a & A & M). eauto.
  - destruct (g_live _ _ _ _ (ci_good _ _ H) i (in_or_app _ _ _ (or_introl I1)) E).
Qed.

Lemma alone_refs s c i v : CI s c -> In i (c_ext c) -> get s i = Some v -> (alone c i <-> x_refs v = 1).
Proof.
  intros H I1 E. rewrite (g_refs _ _ _ _ (ci_good _ _ H) _ _ E), count_app. apply count_In in I1.
  assert (D : count i (deps s) = 0%nat <-> forall j a, c_att c j = Some a -> ~ In i (snd (a_shape a))).
  { split.
    - intros Z j a A I2. destruct (att_get _ _ _ _ (ci_good _ _ H) _ _ A) as (w & Gw & [W _]).
      assert (X : In i (deps s)) by (apply In_deps; exists j, w; rewrite W in I2; auto). apply count_In in X. lia.
    - intros Q. destruct (count i (deps s)) eqn:C; [reflexivity|]. exfalso.
      assert (X : In i (deps s)) by (apply count_In; lia). apply In_deps in X as (j & w & Gw & I2).
      destruct (g_att _ _ _ _ (ci_good _ _ H) _ _ Gw) as (a & A & [W _]). apply (Q _ _ A). rewrite W. exact I2. }
  unfold alone. rewrite <- D. lia.
Qed.

Definition with_ext (c : client) (l : list nat) (att : nat -> option attr) : client :=
  {| c_ext := l; c_att := att; c_pre := c_pre c; c_log := c_log c |}.

Lemma CI_inc s c i : CI s c -> c_att c i <> None -> CI (inc s i) (with_ext c (i :: c_ext c) (c_att c)).
Proof.
  intros [G P N1 L] A. destruct (get s i) as [v|] eqn:E; [|destruct (A (g_none _ _ _ _ G _ E))].
  destruct (Good_inc _ _ _ _ _ G E) as (G1 & P1 & L1 & _). split; cbn; [exact G1|congruence|exact N1|congruence].
Qed.

(** A record is written *)
Lemma CI_record s c i v x a a' : CI s c -> get s i = Some v -> c_att c i = Some a ->
  a_shape a' = a_shape a -> a_shared a' = a_shared a -> fitting x a' ->
  CI (record s i v x) (with_ext c (c_ext c) (fset (c_att c) i (Some a'))).
Proof.
  intros [G P N1 L] E A S1 S2 F. pose proof (Good_record _ _ _ _ G i v x a a' E A S1 S2 F) as G1.
  destruct (record_spec _ _ _ _ G i v x E) as (e & u & _ & _ & _ & _ & _ & _ & _ & _ & _ & _ & _ & _ & P1 & L1).
  split; cbn; [exact G1|congruence|exact N1|congruence].
Qed.

Lemma prefix_full s c : CI s c -> prefix s = match c_pre c with [] => None | l => Some (full (l, [])) end.
Proof.
  intros H. unfold prefix. rewrite (ci_pre _ _ H). destruct (c_pre c) as [|p l]; [reflexivity|].
  f_equal. rewrite <- (app_nil_r (concat _)). apply full_concat.
Qed.

Lemma labelled_ok s c t : CI s c -> match t with Some t => name t | None => True end ->
  tagged (match prefix s with None => t | Some p => Some (p ++ match t with Some t => t | None => [] end) end)
    (labelled (c_pre c) t).
Proof.
  intros H N1. unfold prefix. rewrite (ci_pre _ _ H). pose proof (ci_names _ _ H) as F.
  assert (NN : name []) by (split; intros []).
  destruct (c_pre c) as [|p l].
  - unfold labelled. destruct t as [t|]; cbn [tagged fst snd]; [|reflexivity]. split; [reflexivity|auto].
  - unfold labelled. rewrite full_concat. destruct t as [t|]; cbn [tagged fst snd]; auto.
Qed.

Lemma set_label_eq s c i v t : CI s c -> get s i = Some v -> clean (match t with Some t => t | None => [] end) = true ->
  set_label s i v t = Some (record s i v {| e_label := match prefix s with None => t | Some p => Some (p ++ match t with Some t => t | None => [] end) end;
     e_cb := e_cb (ext_of s v) |}).
Proof.
  intros H E C. unfold set_label. rewrite C. cbn [negb].
  pose proof (var_extra_old _ _ _ _ (ci_good _ _ H) i v E) as O.
  destruct (var_extra_frame s i v) as [P _]. unfold record.
  destruct (var_extra s i v) as [s1 e]. cbn [fst snd] in O, P. rewrite O. unfold prefix. rewrite P. reflexivity.
Qed.

Lemma var_new_ok s c k d ds dis : CI s c -> (forall j, In j ds -> c_att c j <> None) -> (d <> Node -> ds = []) ->
  let b := negb dis && negb (kind_eqb d Mem) in
  exists s' i, var_new s k d ds dis = (s', i) /\
  ((b = true /\ (exists a, c_att c i = Some a /\ a_shape a = (k, d, ds) /\ a_shared a = true) /\
    CI s' (with_ext c (i :: c_ext c) (c_att c))) \/
   (c_att c i = None /\ (b = true -> forall j a, c_att c j = Some a -> a_shape a = (k, d, ds) -> a_shared a = false) /\
    CI s' (with_ext c (i :: c_ext c) (fset (c_att c) i (Some {| a_shape := (k, d, ds); a_shared := b;
       a_label := labelled (c_pre c) None; a_cb := None |}))))).
Proof.
  intros H LV LF b. unfold var_new. fold b.
  destruct (if b then lvn_find s (k, d, ds) else None) as [i|] eqn:FD.
  - exists (inc s i), i. split; [reflexivity|]. left. destruct b; [|discriminate]. split; [reflexivity|].
    unfold lvn_find in FD. destruct (find _ (lvn s)) as [[q j]|] eqn:FE; [|discriminate]. injection FD as <-.
    apply find_some in FE as [I1 Q]. cbn [fst snd] in *. apply vkey_eqb_eq in Q. subst q.
    apply (g_lvn _ _ _ _ (ci_good _ _ H)) in I1 as (a & A & Y & Z).
    split; [eauto|]. apply CI_inc; [exact H|congruence].
  - assert (NS : b = true -> forall j a, c_att c j = Some a -> a_shape a = (k, d, ds) -> a_shared a = false).
    { intros B j a A Y. rewrite B in FD. destruct (a_shared a) eqn:Z; [|reflexivity].
      assert (I1 : In ((k, d, ds), j) (lvn s)) by (apply (g_lvn _ _ _ _ (ci_good _ _ H)); eauto).
      unfold lvn_find in FD. destruct (find _ (lvn s)) as [e|] eqn:FE; [discriminate|].
      pose proof (find_none _ _ FE _ I1) as X. cbn [fst] in X. rewrite (proj2 (vkey_eqb_eq _ _) eq_refl) in X. discriminate. }
    destruct H as [G P N1 L].
    destruct (Good_incs ds s _ _ G) as (G1 & P1 & L1 & V1 & _).
    { intros j I1 E. apply (LV j I1). exact (g_none _ _ _ _ G _ E). }
    set (s1 := fold_left inc ds s) in *.
    destruct (Good_alloc s1 (c_ext c) ds (c_att c) k d b G1 LF) as (AN & GI & G2).
    { intros B. split; [|exact (NS B)]. intros ->. unfold b in B. rewrite andb_false_r in B. discriminate. }
    set (i := first_free (vars s1)) in *.
    set (s2 := enter b (alloc s1 (plain k d ds)) (k, d, ds) i) in *.
    assert (P2 : prefixes s2 = prefixes s /\ log s2 = log s) by (unfold s2, enter; destruct b; cbn; auto).
    set (c2 := with_ext c (i :: c_ext c) (fset (c_att c) i (Some {| a_shape := (k, d, ds); a_shared := b; a_label := None; a_cb := None |}))).
    assert (H2 : CI s2 c2) by (destruct P2; split; cbn; [exact G2|congruence|exact N1|congruence]).
    change (if b then set_lvn _ _ else _) with s2.
    pose proof (prefix_full _ _ H2) as PF. cbn [c_pre c2 with_ext] in PF.
    exists (match prefix s2 with None => s2 | Some p => record s2 i (plain k d ds) {| e_label := Some p; e_cb := None |} end), i.
    split.
    { destruct (prefix s2); [|reflexivity]. unfold record, plain. destruct (var_extra s2 i _). reflexivity. }
    right. split; [exact AN|]. split; [exact NS|].
    destruct (c_pre c) as [|p l] eqn:EP; rewrite PF.
    + destruct H2 as [X1 X2 X3 X4]. split; cbn; auto; rewrite EP in *; auto.
    + set (a2 := {| a_shape := (k, d, ds); a_shared := b; a_label := labelled (c_pre c) None; a_cb := None |}).
      destruct (CI_record s2 c2 i (plain k d ds) {| e_label := Some (full (p :: l, [])); e_cb := None |} _ a2 H2 GI
        ltac:(cbn [c2 with_ext c_att]; unfold fset; rewrite Nat.eqb_refl; reflexivity) eq_refl eq_refl) as [X1 X2 X3 X4].
      { split; [|reflexivity]. cbn [a2 a_label e_label]. rewrite EP. cbn [labelled tagged fst snd].
        split; [reflexivity|]. split; [exact N1|split; intros []]. }
      split; cbn; auto. revert X1. apply Good_att. intros j. cbn [c2 with_ext c_att]. unfold fset, a2. rewrite EP.
      destruct (Nat.eqb j i); reflexivity.
Qed.

Lemma set_label_ok s c i v a t : CI s c -> get s i = Some v -> c_att c i = Some a -> matches s v a ->
  match t with Some t => name t | None => True end ->
  exists s', set_label s i v t = Some s' /\
    CI s' (with_ext c (c_ext c) (fset (c_att c) i (Some {| a_shape := a_shape a; a_shared := a_shared a;
       a_label := labelled (c_pre c) t; a_cb := a_cb a |}))).
Proof.
  intros H E A [M1 [M2 M3]] N1. rewrite (set_label_eq s c i v t H E).
  - eexists. split; [reflexivity|]. apply (CI_record _ _ _ _ _ a); auto. split; [|exact M3].
    cbn [a_label e_label]. now apply labelled_ok.
  - apply clean_name. destruct t; [exact N1|split; intros []].
Qed.

Lemma CI_att s c att ext : CI s (with_ext c ext att) -> forall att', (forall j, att j = att' j) -> CI s (with_ext c ext att').
Proof. intros [G P N1 L] att' Q. split; cbn in *; auto. revert G. apply Good_att. exact Q. Qed.

Theorem step_ok s c o : CI s c -> legal c o ->
  exists s' x c', step s o = Ok s' x /\ effect c o x c' /\ CI s' c'.
Proof.
  intros H LG. destruct o as [k d ds|i|i|i a|i|i|i x|t| |]; cbn [step legal] in *.
  - (* New *)
    destruct LG as [L1 L2]. destruct (var_new_ok s c k d ds false H) as (s' & i & -> & CASE); auto.
    { intros j I1. destruct (held_get _ _ _ H (L1 _ I1)) as (v & a & _ & A & _). congruence. }
    cbn [negb andb] in CASE. destruct CASE as [(B & (a & A & Y & Z) & H')|(A & NS & H')].
    + eexists _, _, _. split; [reflexivity|]. split; [|exact H']. now apply ef_merge with (a := a).
    + eexists _, _, _. split; [reflexivity|]. split; cycle 1; [exact H'|].
      replace (negb (kind_eqb d Mem)) with (match d with Mem => false | _ => true end) by (destruct d; reflexivity).
      apply ef_new; [exact A|]. intros D. apply NS. destruct d; try reflexivity. congruence.
  - (* Inc *)
    destruct (held_get _ _ _ H LG) as (v & a & E & A & _). rewrite E.
    eexists _, _, _. split; [reflexivity|]. split; [apply ef_inc|]. apply (CI_inc _ _ _ H). congruence.
  - (* Dec *)
    destruct H as [G P N1 L]. destruct (dec_ok s c i G LG) as (s' & c' & -> & G' & P' & L' & EF & PC).
    eexists _, _, _. split; [reflexivity|]. split; [exact EF|].
    split; [exact G'|congruence|rewrite PC; exact N1|auto].
  - (* SetLabel *)
    destruct LG as (I1 & NUM & OKC). rewrite (text_means _ NUM).
    destruct (held_get _ _ _ H I1) as (v & b & E & A & M). rewrite E.
    pose proof (alone_refs _ _ _ _ H I1 E) as AR.
    destruct (clean (match means a with Some t => t | None => [] end)) eqn:C.
    + assert (F : fits a) by now apply fits_clean.
      destruct (N.eqb_spec (x_refs v) 1) as [R|R].
      * destruct (set_label_ok s c i v b (means a) H E A M F) as (s' & -> & H').
        eexists _, _, _. split; [reflexivity|]. split; [apply ef_label_here with (a := b); auto; now apply AR|].
        apply (CI_inc _ _ i H'). cbn. unfold fset. rewrite Nat.eqb_refl. discriminate.
      * assert (NA : ~ alone c i) by (rewrite AR; exact R).
        assert (CP : exists s' j b', var_copy s i v = (s', j) /\ c_att c j = None /\
          a_shape b' = again i (a_shape b) /\ a_shared b' = false /\ a_cb b' = None /\
          CI s' (with_ext c (j :: c_ext c) (fset (c_att c) j (Some b')))).
        { destruct M as [M1 _]. pose proof (g_leaf _ _ _ _ (ci_good _ _ H) _ _ A) as LF. rewrite M1 in LF. unfold key_of in LF. cbn [fst snd] in LF.
          unfold var_copy. rewrite M1. unfold key_of, again. destruct (x_kind v) eqn:KD.
          - destruct (var_new_ok s c (x_key v) Lit [] true H) as (s' & j & EQ & CASE); [intros j []|auto|].
            destruct CASE as [(B & _)|(AN & _ & H')]; [discriminate B|]. eexists s', j, _. split; [exact EQ|]. split; [exact AN|].
            split; cycle 1; [split; [|split; [|exact H']]; reflexivity|]. cbn [a_shape]. rewrite LF by discriminate. reflexivity.
          - destruct (var_new_ok s c bitcast Node [i] true H) as (s' & j & EQ & CASE).
            { intros j [<-|[]]. congruence. }
            { congruence. }
            destruct CASE as [(B & _)|(AN & _ & H')]; [discriminate B|]. eexists s', j, _. split; [exact EQ|]. split; [exact AN|].
            split; cycle 1; [split; [|split; [|exact H']]; reflexivity|]. reflexivity.
          - destruct (var_new_ok s c (x_key v) Mem [] false H) as (s' & j & EQ & CASE); [intros j []|auto|].
            destruct CASE as [(B & _)|(AN & _ & H')]; [discriminate B|]. eexists s', j, _. split; [exact EQ|]. split; [exact AN|].
            split; cycle 1; [split; [|split; [|exact H']]; reflexivity|]. cbn [a_shape]. rewrite LF by discriminate. reflexivity. }
        destruct CP as (s' & j & b' & -> & AN & S1 & S2 & S3 & H').
        destruct (held_get _ _ j H' (or_introl eq_refl)) as (w & a' & E' & A' & M'). rewrite E'.
        cbn [c_att with_ext] in A'. unfold fset in A'. rewrite Nat.eqb_refl in A'. injection A' as <-.
        destruct (set_label_ok _ _ j w b' (means a) H' E') as (s2 & -> & H2); auto.
        { cbn. unfold fset. rewrite Nat.eqb_refl. reflexivity. }
        eexists _, _, _. split; [reflexivity|]. split; [now apply ef_label_copy with (a := b) (j := j)|].
        rewrite S1, S2, S3 in H2. refine (CI_att _ c _ _ H2 _ _). intros q. cbn [c_att with_ext c_pre]. unfold fset.
        destruct (Nat.eqb q j); reflexivity.
    + assert (NF : ~ fits a) by (rewrite fits_clean, C; discriminate).
      destruct OKC as [F|AL]; [contradiction|]. rewrite (proj1 AR AL). rewrite N.eqb_refl.
      unfold set_label. rewrite C. cbn [negb].
      eexists _, _, _. split; [reflexivity|]. split; [now apply ef_label_bad|exact H].
  - (* Label *)
    destruct (held_get _ _ _ H LG) as (v & a & E & A & [_ [M _]]). rewrite E.
    eexists _, _, _. split; [reflexivity|]. split; cycle 1; [exact H|].
    replace (label s v) with (match a_label a with Some t => Some (snd t) | None => None end); [now apply ef_label|].
    unfold label. unfold ext_of in M. destruct (x_extra v) as [e|]; cbn [extra0 e_label] in M;
      destruct (a_label a) as [[p t]|]; cbn [tagged fst snd] in *.
    + destruct M as (-> & _ & N1). rewrite behind_full by apply N1. reflexivity.
    + now rewrite M.
    + destruct M as [M _]; discriminate M.
    + reflexivity.
  - (* Groups *)
    destruct (held_get _ _ _ H LG) as (v & a & E & A & [_ [M _]]). rewrite E.
    eexists _, _, _. split; [reflexivity|]. split; cycle 1; [exact H|].
    replace (groups s v) with (match a_label a with Some t => fst t | None => [] end); [now apply ef_groups|].
    unfold groups. unfold ext_of in M. destruct (x_extra v) as [e|]; cbn [extra0 e_label] in M;
      destruct (a_label a) as [[p t]|]; cbn [tagged fst snd] in *.
    + destruct M as (-> & N0 & N1). rewrite pieces_full; [reflexivity|exact N0|apply N1].
    + now rewrite M.
    + destruct M as [M _]; discriminate M.
    + reflexivity.
  - (* SetCallback *)
    destruct LG as [I1 LG]. destruct (held_get _ _ _ H I1) as (v & a & E & A & M). rewrite E.
    pose proof (var_extra_old _ _ _ _ (ci_good _ _ H) i v E) as O.
    set (b := {| a_shape := a_shape a; a_shared := a_shared a; a_label := a_label a; a_cb := x |}).
    assert (H' : CI (record s i v {| e_label := e_label (ext_of s v); e_cb := x |}) (with_ext c (c_ext c) (fset (c_att c) i (Some b)))).
    { apply (CI_record _ _ _ _ _ a); auto. split; [|reflexivity]. apply M. }
    unfold record in H'. destruct (var_extra s i v) as [s1 e]. cbn [fst snd] in O. rewrite O.
    destruct M as [_ [_ M3]]. rewrite M3.
    eexists _, _, _. split; [|split; [now apply ef_callback with (a := a)|exact H']].
    destruct x as [x|]; [rewrite (LG ltac:(discriminate) _ A); reflexivity|reflexivity].
  - (* Push *)
    destruct (clean t) eqn:C.
    + eexists _, _, _. split; [reflexivity|]. split; [apply ef_push; now apply clean_name|].
      destruct H as [G P N1 L]. split; cbn; [|now rewrite P| |exact L].
      * revert G. now apply Good_frame.
      * apply Forall_app. split; [exact N1|]. constructor; [now apply clean_name|constructor].
    + eexists _, _, _. split; [reflexivity|]. split; [|exact H]. apply ef_push_bad. rewrite <- clean_name, C. discriminate.
  - (* Pop *)
    destruct (prefixes s) as [|p l] eqn:P0.
    + eexists _, _, _. split; [reflexivity|]. split; [|exact H]. apply ef_pop_bad. rewrite <- (ci_pre _ _ H). exact P0.
    + destruct H as [G P N1 L]. rewrite P0 in P. destruct (@exists_last _ (p :: l)) as (q & t & Q); [discriminate|].
      rewrite Q in *. rewrite <- P in N1. apply Forall_app in N1 as [N1 _].
      eexists _, _, _. split; [reflexivity|]. split; [apply ef_pop with (t := t); symmetry; exact P|].
      split; cbn; [|now rewrite removelast_last|exact N1|exact L]. revert G. now apply Good_frame.
  - (* Prefix *)
    pose proof (prefix_full _ _ H) as PF. eexists _, _, _. split; [reflexivity|]. split; [|exact H].
    rewrite PF. destruct (c_pre c) as [|p l] eqn:P; [now apply ef_prefix_none|].
    assert (NE : c_pre c <> []) by congruence. pose proof (ef_prefix c NE) as X. rewrite P in X. exact X.
Qed.
