From Verif Require Import Base Cac_Model Cac_Spec.
Local Open Scope nat_scope.

Lemma name_eqb_spec : forall a b, reflect (a = b) (name_eqb a b).
Proof.
  intros [h|h p] [h'|h' p']; cbn; try (constructor; discriminate).
  - destruct (Nat.eqb_spec h h'); constructor; congruence.
  - destruct (Nat.eqb_spec h h'), (Nat.eqb_spec p p'); constructor; congruence.
Qed.
Lemma at_name_eq : forall (A : Type) (f : name -> A) n x, at_name f n x n = x.
Proof. intros. unfold at_name. destruct (name_eqb_spec n n); congruence. Qed.
Lemma at_name_ne : forall (A : Type) (f : name -> A) n x m, m <> n -> at_name f n x m = f m.
Proof. intros. unfold at_name. destruct (name_eqb_spec m n); congruence. Qed.
Lemma at_inode_eq : forall (A : Type) (f : nat -> A) n x, at_inode f n x n = x.
Proof. intros. unfold at_inode. rewrite Nat.eqb_refl. reflexivity. Qed.
Lemma at_inode_ne : forall (A : Type) (f : nat -> A) n x m, m <> n -> at_inode f n x m = f m.
Proof. intros. unfold at_inode. destruct (Nat.eqb_spec m n); congruence. Qed.
Lemma temp_final : forall w h, Final h <> temp w.
Proof. intros. unfold temp. discriminate. Qed.

Definition owned (s : fs) (w : writer) : Prop := forall m i, dir s (temp w) = Some i -> dir s m = Some i -> m = temp w.
Definition pc_ok (s : fs) (w : writer) (p : pc) : Prop :=
  match p with
  | Start => owned s w
  | Writing i pos rest => owned s w /\ dir s (temp w) = Some i /\ exists done, w_pieces w = done ++ rest /\ content s i = concat done /\ pos = length (concat done)
  | Written => owned s w /\ exists i, dir s (temp w) = Some i /\ content s i = complete w
  | Linked | Finished => True
  end.
Record ok_world (ok : nat -> list N -> Prop) (ws : list writer) (x : world) : Prop := mkOk {
  o_len : length (w_pcs x) = length ws;
  o_bound : forall n i, dir (w_fs x) n = Some i -> i < inodes (w_fs x);
  o_pc : forall n w p, nth_error ws n = Some w -> nth_error (w_pcs x) n = Some p -> pc_ok (w_fs x) w p;
  o_final : forall h i, dir (w_fs x) (Final h) = Some i -> sound ok ws h (content (w_fs x) i) }.

(** changes that keep the directory entry and the content of another writer *)
Lemma pc_keep : forall s s' w p, pc_ok s w p -> (match p with Start | Writing _ _ _ | Written => dir s' (temp w) = dir s (temp w) | _ => True end) ->
  (forall i, dir s (temp w) = Some i -> owned s w -> content s' i = content s i) ->
  (owned s w -> owned s' w) -> pc_ok s' w p.
Proof.
  intros s s' w p P D C O. destruct p; cbn in *; auto.
  - destruct P as (A & B & done & E1 & E2 & E3). split; [auto|]. split; [congruence|]. exists done. split; [exact E1|]. split; [|exact E3]. rewrite C; auto.
  - destruct P as (A & i & B & E). split; [auto|]. exists i. split; [congruence|]. rewrite C; auto.
Qed.
Lemma nth_set : forall (A : Type) (l : list A) n m x y, nth_error (set_nth n x l) m = Some y -> (n = m /\ y = x) \/ (n <> m /\ nth_error l m = Some y).
Proof.
  intros A l n m x y E. destruct (Nat.eq_dec n m) as [->|D].
  - left. split; [reflexivity|]. destruct (Nat.lt_ge_cases m (length l)).
    + rewrite nth_error_set_nth_eq in E by assumption. congruence.
    + exfalso. assert (X : nth_error (set_nth m x l) m <> None) by congruence. apply nth_error_Some in X. rewrite set_nth_length in X. lia.
  - right. rewrite nth_error_set_nth_neq in E by assumption. auto.
Qed.

Section S.
Variable ok : nat -> list N -> Prop.
Variable ws : list writer.
Hypothesis dn : distinct_names ws.
Lemma temp_other : forall n m w v, nth_error ws n = Some w -> nth_error ws m = Some v -> n <> m -> temp w <> temp v.
Proof.
  intros n m w v A B D E. apply D. unfold distinct_names in dn. rewrite NoDup_nth_error in dn. apply dn.
  - rewrite map_length. apply nth_error_Some. congruence.
  - rewrite !nth_error_map, A, B. cbn. congruence.
Qed.
Lemma step_ok : forall e x, ok_world ok ws x -> ok_world ok ws (step ws e x).
Proof.
  intros [n fail|h] x [OL OB OP OF]; cbn [step].
  - destruct (nth_error ws n) as [w|] eqn:EW; [|constructor; assumption]. destruct (nth_error (w_pcs x) n) as [p|] eqn:EP; [|constructor; assumption].
    pose proof (OP n w p EW EP) as PW. destruct x as [s ps]. cbn [w_fs w_pcs] in *.
    assert (NN : n < length ps) by (apply nth_error_Some; congruence).
    (* the general shape *)
    assert (G : forall p' s', pc_ok s' w p' ->
       (forall m i, dir s' m = Some i -> i < inodes s') ->
       (forall h i, dir s' (Final h) = Some i -> sound ok ws h (content s' i)) ->
       (forall v q, In v ws -> temp v <> temp w -> pc_ok s v q -> pc_ok s' v q) ->
       ok_world ok ws (mkWorld s' (set_nth n p' ps))).
    { intros p' s' A B C D. constructor; cbn [w_fs w_pcs]; [rewrite set_nth_length; exact OL|exact B| |exact C].
      intros m v q Ev Eq. destruct (nth_set _ _ _ _ _ _ Eq) as [[<- ->]|[Dm Eq']]; [congruence|].
      apply D; [eapply nth_error_In; exact Ev|intros X; exact (temp_other n m w v EW Ev Dm (eq_sym X))|exact (OP m v q Ev Eq')]. }
    assert (Gsame : forall p', pc_ok s w p' -> ok_world ok ws (mkWorld s (set_nth n p' ps))) by (intros p' A; apply G; auto).
    assert (OW : forall i v, owned s w -> dir s (temp w) = Some i -> temp v <> temp w -> forall j, dir s (temp v) = Some j -> j <> i).
    { intros i v O A Nv j B ->. apply Nv. exact (O _ _ A B). }
    (* writing to an owned inode *)
    assert (GW : forall p' i c, owned s w -> dir s (temp w) = Some i -> pc_ok (mkFs (dir s) (at_inode (content s) i c) (inodes s)) w p' ->
       ok_world ok ws (mkWorld (mkFs (dir s) (at_inode (content s) i c) (inodes s)) (set_nth n p' ps))).
    { intros p' i c O A K. apply G; [exact K|exact OB| |].
      - intros h j B. cbn. rewrite at_inode_ne; [exact (OF h j B)|]. intros ->. exact (temp_final w h (O _ _ A B)).
      - intros v q _ Nv Q. refine (pc_keep s _ v q Q _ _ _); cbn [dir content inodes]; [destruct q; auto| |auto]. intros j B _. apply at_inode_ne. exact (OW i v O A Nv j B). }
    destruct p as [|i pos [|c r]| | |]; cbn [step_writer].
    + destruct fail; [apply Gsame; exact I|]. unfold fs_open. case_eq (dir s (temp w)); [intros i ED|intros ED].
      * apply GW; [exact PW|exact ED|]. cbn. split; [exact PW|]. split; [exact ED|]. exists []. rewrite at_inode_eq. auto.
      * set (i := inodes s). apply G.
        -- cbn [dir content inodes pc_ok]. rewrite at_name_eq, at_inode_eq. split; [|split; [reflexivity|exists []; auto]].
           intros m j A B. cbn [dir content inodes] in A, B. rewrite at_name_eq in A. injection A as <-. destruct (name_eqb_spec m (temp w)) as [E|E]; [exact E|]. rewrite at_name_ne in B by exact E. apply OB in B. unfold i in B. lia.
        -- cbn [dir content inodes pc_ok]. intros m j A. destruct (name_eqb_spec m (temp w)) as [->|E]; [rewrite at_name_eq in A; injection A as <-; unfold i; lia|]. rewrite at_name_ne in A by exact E. apply OB in A. lia.
        -- cbn [dir content inodes pc_ok]. intros h j A. rewrite at_name_ne in A by apply temp_final. rewrite at_inode_ne; [exact (OF h j A)|]. apply OB in A. unfold i. lia.
        -- intros v q _ Nv Q. refine (pc_keep s _ v q Q _ _ _); cbn [dir content inodes].
           ++ destruct q; auto; apply at_name_ne, Nv.
           ++ intros j A _. apply at_inode_ne. apply OB in A. unfold i. lia.
           ++ intros O m j A B. cbn [dir content inodes] in A, B. rewrite at_name_ne in A by exact Nv. destruct (name_eqb_spec m (temp w)) as [->|E]; [rewrite at_name_eq in B; injection B as <-; apply OB in A; unfold i in A; lia|]. rewrite at_name_ne in B by exact E. exact (O m j A B).
    + destruct PW as (O & D & done & E1 & E2 & E3). destruct fail; apply Gsame; [exact I|]. cbn. split; [exact O|]. exists i. split; [exact D|]. rewrite E2. unfold complete. rewrite E1, app_nil_r. reflexivity.
    + destruct PW as (O & D & done & E1 & E2 & E3). destruct fail; [apply Gsame; exact I|]. unfold fs_write. apply GW; [exact O|exact D|]. cbn. split; [exact O|]. split; [exact D|]. exists (done ++ [c]).
      rewrite <- app_assoc. split; [exact E1|]. rewrite at_inode_eq, E2, E3, concat_app. cbn [concat]. rewrite app_nil_r. split; [|rewrite app_length; reflexivity].
      rewrite firstn_app, Nat.sub_diag, firstn_O, app_nil_r, firstn_all. rewrite skipn_all2 by lia. rewrite app_nil_r. reflexivity.
    + destruct PW as (O & i & D & E). destruct fail; [apply Gsame; exact I|]. unfold fs_link. rewrite D. destruct (dir s (Final (w_hash w))) as [j|] eqn:EF; [apply Gsame; exact I|]. apply G.
      * exact I.
      * cbn [dir content inodes pc_ok]. intros m j A. destruct (name_eqb_spec m (Final (w_hash w))) as [->|X]; [rewrite at_name_eq in A; injection A as <-; exact (OB _ _ D)|]. rewrite at_name_ne in A by exact X. exact (OB _ _ A).
      * cbn [dir content inodes pc_ok]. intros h j A. destruct (name_eqb_spec (Final h) (Final (w_hash w))) as [X|X].
        -- injection X as ->. rewrite at_name_eq in A. injection A as <-. right. exists w. split; [eapply nth_error_In; exact EW|]. auto.
        -- rewrite at_name_ne in A by exact X. exact (OF h j A).
      * intros v q _ Nv Q. refine (pc_keep s _ v q Q _ _ _); cbn [dir content inodes].
        -- destruct q; auto; apply at_name_ne; intros X; exact (temp_final v _ (eq_sym X)).
        -- reflexivity.
        -- intros Ov m j A B. cbn [dir content inodes] in A, B. rewrite at_name_ne in A by (intros X; exact (temp_final v _ (eq_sym X))). destruct (name_eqb_spec m (Final (w_hash w))) as [->|X].
           ++ rewrite at_name_eq in B. injection B as <-. exfalso. apply Nv. symmetry. exact (Ov _ _ A D).
           ++ rewrite at_name_ne in B by exact X. exact (Ov m j A B).
    + destruct fail; [apply Gsame; exact I|]. unfold fs_remove. apply G.
      * exact I.
      * cbn [dir content inodes pc_ok]. intros m j A. destruct (name_eqb_spec m (temp w)) as [->|X]; [rewrite at_name_eq in A; discriminate|]. rewrite at_name_ne in A by exact X. exact (OB _ _ A).
      * cbn [dir content inodes pc_ok]. intros h j A. rewrite at_name_ne in A by apply temp_final. exact (OF h j A).
      * intros v q _ Nv Q. refine (pc_keep s _ v q Q _ _ _); cbn [dir content inodes].
        -- destruct q; auto; apply at_name_ne, Nv.
        -- reflexivity.
        -- intros Ov m j A B. cbn [dir content inodes] in A, B. rewrite at_name_ne in A by exact Nv. destruct (name_eqb_spec m (temp w)) as [->|X]; [rewrite at_name_eq in B; discriminate|]. rewrite at_name_ne in B by exact X. exact (Ov m j A B).
    + apply Gsame. exact I.
  - destruct x as [s ps]. cbn [w_fs w_pcs] in *. unfold fs_remove. constructor; cbn [dir content inodes w_fs w_pcs]; [exact OL| | |].
    + intros m j A. destruct (name_eqb_spec m (Final h)) as [->|X]; [rewrite at_name_eq in A; discriminate|]. rewrite at_name_ne in A by exact X. exact (OB _ _ A).
    + intros n v q Ev Eq. refine (pc_keep s _ v q (OP n v q Ev Eq) _ _ _); cbn [dir content inodes].
      * destruct q; auto; apply at_name_ne; intros X; exact (temp_final v _ (eq_sym X)).
      * reflexivity.
      * intros Ov m j A B. cbn [dir content inodes] in A, B. rewrite at_name_ne in A by (intros X; exact (temp_final v _ (eq_sym X))). destruct (name_eqb_spec m (Final h)) as [->|X]; [rewrite at_name_eq in B; discriminate|]. rewrite at_name_ne in B by exact X. exact (Ov m j A B).
    + intros h' j A. destruct (name_eqb_spec (Final h') (Final h)) as [X|X]; [injection X as ->; rewrite at_name_eq in A; discriminate|]. rewrite at_name_ne in A by exact X. exact (OF h' j A).
Qed.
Lemma run_ok : forall es x, ok_world ok ws x -> ok_world ok ws (run ws es x).
Proof. induction es as [|e es IH]; intros x O; [exact O|]. cbn [run]. apply IH, step_ok, O. Qed.
Lemma start_ok : forall s, clean ok ws s -> ok_world ok ws (start ws s).
Proof.
  intros s (A & B & C). unfold start. constructor; cbn; [apply map_length|exact A| |intros h i D; left; exact (C h i D)].
  intros n w p Ew Ep. rewrite nth_error_map, Ew in Ep. cbn in Ep. injection Ep as <-. cbn. intros m i X Y. exact (B w m i (nth_error_In _ _ Ew) X Y).
Qed.
End S.

(** A published file stays as it is, whatever happens to its name *)
Definition frozen (ws : list writer) (i : nat) (x : world) : Prop :=
  i < inodes (w_fs x) /\ forall n w p, nth_error ws n = Some w -> nth_error (w_pcs x) n = Some p ->
    match p with Start => dir (w_fs x) (temp w) <> Some i | Writing j _ _ => j <> i | _ => True end.
Lemma frozen_start : forall ok ws x h i, ok_world ok ws x -> dir (w_fs x) (Final h) = Some i -> frozen ws i x.
Proof.
  intros ok ws x h i [OL OB OP OF] D. split; [exact (OB _ _ D)|]. intros n w p Ew Ep. pose proof (OP n w p Ew Ep) as P. destruct p; cbn in P; auto.
  - intros E. exact (temp_final w h (P _ _ E D)).
  - destruct P as (O & E & _). intros ->. exact (temp_final w h (O _ _ E D)).
Qed.
Lemma frozen_step : forall ws, distinct_names ws -> forall e x i, frozen ws i x -> frozen ws i (step ws e x) /\ content (w_fs (step ws e x)) i = content (w_fs x) i.
Proof.
  intros ws dn [n fail|h] [s ps] i [B F]; cbn [step w_fs w_pcs] in *.
  - destruct (nth_error ws n) as [w|] eqn:EW; [|split; [split; assumption|reflexivity]]. destruct (nth_error ps n) as [p|] eqn:EP; [|split; [split; assumption|reflexivity]].
    pose proof (F n w p EW EP) as P.
    assert (G : forall p' s', i < inodes s' -> content s' i = content s i -> (forall v, In v ws -> temp v <> temp w -> dir s (temp v) <> Some i -> dir s' (temp v) <> Some i) ->
      match p' with Start => dir s' (temp w) <> Some i | Writing j _ _ => j <> i | _ => True end ->
      frozen ws i (mkWorld s' (set_nth n p' ps)) /\ content (w_fs (mkWorld s' (set_nth n p' ps))) i = content s i).
    { intros p' s' A C D E. split; [|exact C]. split; [exact A|]. cbn [w_fs w_pcs]. intros m v q Ev Eq. destruct (nth_set _ _ _ _ _ _ Eq) as [[<- ->]|[Dm Eq']].
      - assert (v = w) by congruence. subst v. exact E.
      - specialize (F m v q Ev Eq'). assert (Nv : temp v <> temp w) by (intros X; exact (temp_other ws dn n m w v EW Ev Dm (eq_sym X))).
        destruct q; auto; apply D; auto; eapply nth_error_In; exact Ev. }
    destruct p as [|j pos [|c r]| | |]; cbn [step_writer].
    + destruct fail; [apply G; auto|]. unfold fs_open. case_eq (dir s (temp w)); [intros j D|intros D].
      * assert (j <> i) by congruence. apply G; cbn [dir content inodes]; auto. apply at_inode_ne. auto.
      * apply G; cbn [dir content inodes]; [lia|apply at_inode_ne; lia| |lia]. intros v _ Nv. rewrite at_name_ne by exact Nv. auto.
    + destruct fail; apply G; auto.
    + destruct fail; [apply G; auto|]. unfold fs_write. apply G; cbn [dir content inodes]; auto. apply at_inode_ne. auto.
    + destruct fail; apply G; auto; unfold fs_link; destruct (dir s (temp w)), (dir s (Final (w_hash w))); cbn [dir content inodes]; auto.
    + destruct fail; apply G; auto; unfold fs_remove; cbn [dir content inodes]; auto. intros v _ Nv. rewrite at_name_ne by exact Nv. auto.
    + apply G; auto.
  - split; [|reflexivity]. split; [exact B|]. cbn [w_fs w_pcs]. intros n v q Ev Eq. specialize (F n v q Ev Eq). unfold fs_remove. cbn [dir].
    destruct q; auto; rewrite at_name_ne by (intros X; exact (temp_final v _ (eq_sym X))); exact F.
Qed.
Lemma frozen_run : forall ws, distinct_names ws -> forall es x i, frozen ws i x -> content (w_fs (run ws es x)) i = content (w_fs x) i.
Proof.
  intros ws dn. induction es as [|e es IH]; intros x i F; [reflexivity|]. cbn [run]. destruct (frozen_step ws dn e x i F) as [F' C]. rewrite (IH _ _ F'). exact C.
Qed.
Lemma run_app : forall ws a b x, run ws (a ++ b) x = run ws b (run ws a x).
Proof. intros ws. induction a as [|e a IH]; intros b x; [reflexivity|]. cbn [app run]. apply IH. Qed.
Lemma atomic : forall ok ws es s h i, distinct_names ws -> clean ok ws s ->
  dir (w_fs (run ws es (start ws s))) (Final h) = Some i -> sound ok ws h (content (w_fs (run ws es (start ws s))) i).
Proof. intros ok ws es s h i D C E. exact (o_final _ _ _ (run_ok ok ws D es _ (start_ok ok ws s C)) h i E). Qed.
Lemma stable : forall ok ws es es' s h i, distinct_names ws -> clean ok ws s ->
  dir (w_fs (run ws es (start ws s))) (Final h) = Some i ->
  content (w_fs (run ws (es ++ es') (start ws s))) i = content (w_fs (run ws es (start ws s))) i.
Proof. intros ok ws es es' s h i D C E. rewrite run_app. apply frozen_run; [exact D|]. exact (frozen_start ok ws _ h i (run_ok ok ws D es _ (start_ok ok ws s C)) E). Qed.
(** A writer that is not disturbed publishes its entry and leaves no temporary file. *)
Lemma step_at : forall ws n w p x, nth_error ws n = Some w -> nth_error (w_pcs x) n = Some p ->
  step ws (Step n false) x = mkWorld (snd (step_writer w false p (w_fs x))) (set_nth n (fst (step_writer w false p (w_fs x))) (w_pcs x)).
Proof. intros ws n w p x E F. cbn [step]. rewrite E, F. destruct (step_writer w false p (w_fs x)). reflexivity. Qed.
Lemma finish_write : forall ok ws, distinct_names ws -> forall n w, nth_error ws n = Some w -> forall rest x i pos, ok_world ok ws x ->
  nth_error (w_pcs x) n = Some (Writing i pos rest) -> dir (w_fs x) (Final (w_hash w)) = None ->
  let y := run ws (repeat (Step n false) (length rest + 3)) x in
  exists i, dir (w_fs y) (Final (w_hash w)) = Some i /\ content (w_fs y) i = complete w /\ dir (w_fs y) (temp w) = None.
Proof.
  intros ok ws D n w EW. induction rest as [|c rest IH]; intros x i pos O EP EF; cbn [length Nat.add repeat run].
  - pose proof (step_ok ok ws D (Step n false) x O) as O1. assert (L : n < length (w_pcs x)) by (apply nth_error_Some; congruence).
    rewrite (step_at _ _ _ _ _ EW EP) in *. cbn [step_writer fst snd] in *. set (x1 := mkWorld _ _) in *.
    assert (E1 : nth_error (w_pcs x1) n = Some Written) by (apply nth_error_set_nth_eq; exact L).
    destruct (o_pc _ _ _ O1 n w Written EW E1) as (_ & j & D1 & C1).
    rewrite (step_at _ _ _ _ _ EW E1). cbn [step_writer fst snd]. change (w_fs x1) with (w_fs x) in *. change (w_pcs x1) with (set_nth n Written (w_pcs x)).
    unfold fs_link. rewrite D1, EF. set (x2 := mkWorld _ _).
    assert (E2 : nth_error (w_pcs x2) n = Some Linked) by (apply nth_error_set_nth_eq; rewrite set_nth_length; exact L).
    rewrite (step_at _ _ _ _ _ EW E2). cbn [step_writer fst snd w_fs x2]. unfold fs_remove. cbn [dir content inodes]. exists j.
    rewrite at_name_ne by apply temp_final. rewrite !at_name_eq. auto.
  - pose proof (step_ok ok ws D (Step n false) x O) as O1. assert (L : n < length (w_pcs x)) by (apply nth_error_Some; congruence).
    rewrite (step_at _ _ _ _ _ EW EP) in *. cbn [step_writer fst snd] in *. apply (IH _ i (pos + length c)); [exact O1|apply nth_error_set_nth_eq; exact L|exact EF].
Qed.
Lemma publishes : forall ok ws s n w, distinct_names ws -> clean ok ws s -> nth_error ws n = Some w -> dir s (Final (w_hash w)) = None ->
  let y := run ws (repeat (Step n false) (length (w_pieces w) + 4)) (start ws s) in
  exists i, dir (w_fs y) (Final (w_hash w)) = Some i /\ content (w_fs y) i = complete w /\ dir (w_fs y) (temp w) = None.
Proof.
  intros ok ws s n w D C EW EF. replace (length (w_pieces w) + 4) with (S (length (w_pieces w) + 3)) by lia. cbn [repeat run].
  pose proof (step_ok ok ws D (Step n false) _ (start_ok ok ws s C)) as O.
  assert (EP : nth_error (w_pcs (start ws s)) n = Some Start) by (cbn; rewrite nth_error_map, EW; reflexivity).
  assert (L : n < length (w_pcs (start ws s))) by (apply nth_error_Some; congruence).
  rewrite (step_at _ _ _ _ _ EW EP) in *. cbn [step_writer w_fs start] in *. destruct (fs_open (temp w) s) as [s' i] eqn:E. cbn [fst snd] in *.
  apply (finish_write ok ws D n w EW _ _ i 0 O); [apply nth_error_set_nth_eq; exact L|]. cbn. unfold fs_open in E. destruct (dir s (temp w)); injection E as <- <-; cbn [dir]; [exact EF|].
  rewrite at_name_ne by apply temp_final. exact EF.
Qed.
