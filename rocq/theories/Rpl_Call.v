(** Frozen functions: recording one operation. *)
From Verif Require Import Base Rpl_Model Rpl_Spec Rpl_Rec.
Local Open Scope N_scope.

(** The arguments with the types they are recorded with *)
Definition rargs (t : tys) (c : call) : list arg :=
  match c_kind c, c_args c with
  | KMemcpy _, [src; dst] => [src; {| a_p := a_p dst; a_out := true; a_pf := false; a_vt := t (a_p src); a_b := a_b dst |}]
  | _, l => l
  end.
Definition rop_of (c : call) (os : list oarg) : rop := {| o_kind := c_kind c; o_args := os; o_launch := launch_of c |}.
Definition pre_of (s : rst) (c : call) : list rop :=
  match c_kind c, c_args c with
  | KWidth n, [_; dst] => [{| o_kind := KMemset 1 4 n; o_args := [{| o_slot := match find (a_p dst) (r_map s) with Some i => i | None => 0%nat end; o_out := true; o_vt := Void |}]; o_launch := no_launch |}]
  | _, _ => []
  end.

Lemma record_with_ok xs lax s known t c l : minv xs s known t ->
  (forall a, In a l -> a_out a = false -> known (a_p a)) -> (forall a, In a l -> a_out a = true -> ~ In (a_p a) xs) ->
  (forall a b, In a l -> In b l -> a_out a = true -> a_out b = false -> a_p a <> a_p b) ->
  exists s' os, record_with lax s c l = Some s' /\ r_ops s' = r_ops s ++ [rop_of c os] /\
    minv xs s' (fun x => In x (outs l) \/ known x) (fold_left track1 l t) /\ Forall2 (link s' t) l os /\ grows s s' /\ r_ins s' = r_ins s.
Proof.
  intros I KI NX SEP. destruct (params_ok xs lax l s known t I KI NX SEP) as (s' & os & E & I' & FL & G & P1 & P2 & P3).
  unfold record_with. rewrite E. cbn [bind fst snd]. eexists _, os. split; [reflexivity|]. unfold push. cbn [r_ops r_ins]. rewrite P1.
  split; [reflexivity|]. split; [destruct I'; constructor; auto|]. split; [exact FL|]. split; [exact G|exact P2].
Qed.

Lemma in_outs a l : In a l -> a_out a = true -> In (a_p a) (outs l).
Proof. intros H E. apply in_map. apply filter_In. auto. Qed.
Lemma in_ins a (c : call) : In a (c_args c) -> a_out a = false -> In (a_p a) (ins_of c).
Proof. intros H E. apply in_map. apply filter_In. rewrite E. auto. Qed.

Lemma rec_call_ok xs s known t c : minv xs s known t -> (forall a, In a (c_args c) -> a_out a = false -> known (a_p a)) ->
  separate xs c -> regular t c ->
  exists s' os, rec_call s c = Some s' /\ r_ops s' = r_ops s ++ pre_of s' c ++ [rop_of c os] /\
    minv xs s' (fun x => In x (outs_of c) \/ known x) (track t c) /\ Forall2 (link s' t) (rargs t c) os /\ grows s s' /\ r_ins s' = r_ins s.
Proof.
  intros I KI [ND SEP] R.
  assert (NX : forall a, In a (c_args c) -> a_out a = true -> ~ In (a_p a) xs).
  { intros a Ha E. apply (SEP (a_p a)). now apply in_outs. }
  assert (DJ : forall a b, In a (c_args c) -> In b (c_args c) -> a_out a = true -> a_out b = false -> a_p a <> a_p b).
  { intros a b Ha Hb Ea Eb X. apply (proj1 (SEP (a_p a) (in_outs _ _ Ha Ea))). rewrite X. now apply in_ins. }
  assert (GEN : forall lax, exists s' os, record_with lax s c (c_args c) = Some s' /\ r_ops s' = r_ops s ++ [] ++ [rop_of c os] /\
    minv xs s' (fun x => In x (outs_of c) \/ known x) (fold_left track1 (c_args c) t) /\ Forall2 (link s' t) (c_args c) os /\ grows s s' /\ r_ins s' = r_ins s).
  { intros lax. apply (record_with_ok xs lax s known t c (c_args c) I KI NX DJ). }
  unfold rec_call, pre_of, rargs, track. unfold regular in R.
  destruct (c_kind c) as [k n|n isz v|n|rp n|n|n bs bc|vt rp n bs|vt rp n bs ex rev|vt n|es|n|n|] eqn:EK;
    try (destruct (c_args c) as [|a0 [|a1 [|a2 [|a3 l]]]] eqn:EA; try contradiction; apply (GEN false)).
  - (* memcpy *)
    destruct (c_args c) as [|src [|dst [|a2 l]]] eqn:EA; try contradiction.
    destruct R as ([R1 R1'] & (R2 & R2') & R3 & _).
    assert (KS : known (a_p src)) by (apply KI; [now left|assumption]).
    destruct (proj1 (mi_known _ _ _ _ I (a_p src)) KS) as [i Ei]. rewrite Ei. cbn [bind]. rewrite (mi_ty _ _ _ _ I _ _ Ei).
    set (dst' := {| a_p := a_p dst; a_out := true; a_pf := false; a_vt := t (a_p src); a_b := a_b dst |}).
    destruct (record_with_ok xs false s known t c [src; dst'] I) as (s' & os & E & O & I' & FL & G & P).
    + intros a [<-|[<-|[]]] Ea; [assumption|discriminate].
    + intros a [<-|[<-|[]]] Ea; [congruence|]. apply (NX dst); [right; now left|assumption].
    + intros a b [<-|[<-|[]]] [<-|[<-|[]]] Ea Eb; try congruence. apply (DJ dst src); auto; [right; now left|now left].
    + exists s', os. split; [exact E|]. split; [exact O|]. split; [|split; [exact FL|split; [exact G|exact P]]].
      eapply minv_ext; [exact I'| |].
      * intros x. unfold outs, outs_of. rewrite EA. cbn [filter map dst' a_out]. rewrite R1, R2. reflexivity.
      * intros x. cbn [fold_left]. unfold track1. rewrite R1. cbn [andb a_out a_vt a_p dst']. destruct (t (a_p src) =? Void); reflexivity.
  - (* mkperm *)
    destruct (c_args c) as [|a0 [|a1 [|a2 [|a3 l]]]] eqn:EA; try contradiction.
    destruct R as ([R1 R1'] & _). assert (KS : known (a_p a0)) by (apply KI; [now left|assumption]).
    destruct (proj1 (mi_known _ _ _ _ I (a_p a0)) KS) as [i Ei]. rewrite Ei. apply (GEN false).
  - (* aggregate *) destruct (c_args c) as [|d l] eqn:EA; [contradiction|]. apply (GEN true).
  - (* width *)
    destruct (c_args c) as [|src [|dst [|a2 l]]] eqn:EA; try contradiction.
    destruct R as ([R1 R1'] & R2 & (R3 & R3') & _).
    destruct (out_param_ok xs s known t (a_p dst) Void I) as (s1 & i & E1 & F1 & G1 & FR & Q1 & Q2 & Q3 & I1); [apply NX; [right; now left|assumption]|].
    rewrite E1. set (s1' := push s1 _ _).
    assert (I1' : minv xs s1' (fun x => x = a_p dst \/ known x) (if Void =? Void then t else set_ty t (a_p dst) Void)) by (destruct I1; constructor; assumption).
    destruct (record_with_ok xs false s1' _ _ c [src; dst] I1') as (s' & os & E & O & I' & FL & G & P).
    + intros a [<-|[<-|[]]] Ea; [right; apply KI; [now left|assumption]|congruence].
    + intros a Ha. apply NX. exact Ha.
    + exact DJ.
    + rewrite E. exists s', os. split; [reflexivity|]. split.
      { rewrite O. unfold s1', push. cbn [r_ops]. rewrite Q1, <- app_assoc. do 3 f_equal.
        assert (X : find (a_p dst) (r_map s') = Some i) by (apply G; exact F1). now rewrite X. }
      split.
      { eapply minv_ext; [exact I'| |reflexivity]. intros x. unfold outs, outs_of. rewrite EA. cbn [filter map]. rewrite R1, R3. cbn [map In]. intuition auto. }
      split.
      { replace (if Void =? Void then t else set_ty t (a_p dst) Void) with t in FL by (rewrite N.eqb_refl; reflexivity). exact FL. }
      split; [|rewrite P; unfold s1', push; cbn [r_ins]; exact Q2].
      apply (grows_trans s s1' s'); [apply (mi_bound _ _ _ _ I1)|exact G1|exact G].
Qed.

(** Inputs *)
Definition in_var (xs : list (N * N)) : list rvar := map (fun i => {| v_un := false; v_in := Some i; v_ty := snd (nth i xs (0, 0)) |}) (seq 0 (length xs)).
Fixpoint imap (i : nat) (xs : list (N * N)) (m : list (N * nat)) : list (N * nat) :=
  match xs with [] => m | x :: xs => imap (S i) xs ((fst x, i) :: m) end.
Lemma inputs_go : forall xs m vs ins, (forall x, In x (map fst xs) -> find x m = None) -> NoDup (map fst xs) -> length vs = length ins ->
  fold_left rec_input xs {| r_map := m; r_vars := vs; r_ops := []; r_ins := ins; r_dry := false |} =
  {| r_map := imap (length ins) xs m; r_vars := vs ++ map (fun x => {| v_un := false; v_in := Some (fst x); v_ty := snd (snd x) |}) (combine (seq (length ins) (length xs)) xs);
     r_ops := []; r_ins := ins ++ seq (length ins) (length xs); r_dry := false |}.
Proof.
  induction xs as [|[x ty] xs IH]; intros m vs ins FM ND L; cbn [fold_left imap seq combine map length]; [now rewrite !app_nil_r|].
  cbn [map fst] in ND. apply NoDup_cons_iff in ND. destruct ND as [NI ND].
  unfold rec_input at 2. unfold add_variable. cbn [fst snd r_map r_vars r_ins r_ops r_dry]. rewrite (FM x (or_introl eq_refl)).
  cbn [r_map r_vars r_ins r_ops r_dry].
  rewrite IH.
  - rewrite app_length. cbn [length]. rewrite Nat.add_1_r, L. f_equal.
    + assert (X : forall (l : list rvar) v w, set_nth (length l) v (l ++ [w]) = l ++ [v]) by (induction l; intros; cbn; [reflexivity|now rewrite IHl]).
      rewrite <- L, X, <- app_assoc. cbn [app fst snd]. reflexivity.
    + rewrite <- app_assoc. reflexivity.
  - intros y Hy. cbn [find fst]. replace (x =? y) with false; [apply FM; right; exact Hy|]. symmetry. apply N.eqb_neq. intros ->. auto.
  - exact ND.
  - rewrite set_nth_length, !app_length. cbn. lia.
Qed.

Lemma in_map_find : forall xs i m x, NoDup (map fst xs) -> (forall y, In y (map fst xs) -> find y m = None) ->
  find x (imap i xs m) = match List.find (fun p => fst (snd p) =? x) (combine (seq i (length xs)) xs) with Some p => Some (fst p) | None => find x m end.
Proof.
  induction xs as [|y xs IH]; intros i m x ND FM; cbn [imap length seq combine List.find]; [reflexivity|].
  cbn [map] in ND. apply NoDup_cons_iff in ND. destruct ND as [NI ND]. rewrite IH; [|exact ND|].
  - cbn [snd fst find]. destruct (fst y =? x) eqn:E; [|reflexivity].
    destruct (List.find _ _) as [p|] eqn:F; [|reflexivity]. exfalso. apply find_some in F. destruct F as [F1 F2].
    apply NI. apply N.eqb_eq in E. rewrite E. apply N.eqb_eq in F2. rewrite <- F2. destruct p as [j p]. cbn [snd]. apply in_map. now apply in_combine_r in F1.
  - intros z Hz. cbn [find]. replace (fst y =? z) with false; [apply FM; now right|]. symmetry. apply N.eqb_neq. intros X. apply NI. rewrite X. exact Hz.
Qed.
Lemma combine_find : forall (xs : list (N * N)) i x, match List.find (fun p => fst (snd p) =? x) (combine (seq i (length xs)) xs) with
  | Some p => (i <= fst p)%nat /\ nth_error xs (fst p - i) = Some (snd p) /\ fst (snd p) = x
  | None => ~ In x (map fst xs) end.
Proof.
  induction xs as [|y xs IH]; intros i x; cbn [length seq combine List.find map In]; [auto|]. cbn [snd fst].
  destruct (fst y =? x) eqn:E; [cbn [fst snd]; rewrite Nat.sub_diag; split; [lia|]; split; [reflexivity|lia]|].
  specialize (IH (S i) x). destruct (List.find _ _) as [p|].
  - destruct IH as (A & B & D). split; [lia|]. split; [|exact D]. replace (fst p - i)%nat with (S (fst p - S i)) by lia. exact B.
  - intros [X|X]; [lia|auto].
Qed.
Lemma in_map_keys : forall xs i m, map fst (imap i xs m) = rev (map fst xs) ++ map fst m.
Proof. induction xs as [|y xs IH]; intros i m; cbn [imap map rev app]; [reflexivity|]. rewrite IH. cbn [map fst]. now rewrite <- app_assoc. Qed.

Definition rst_in (xs : list (N * N)) : rst := fold_left rec_input xs rst0.
Lemma rst_in_eq xs : NoDup (map fst xs) -> rst_in xs = {| r_map := imap 0 xs []; r_vars := map (fun x => {| v_un := false; v_in := Some (fst x); v_ty := snd (snd x) |}) (combine (seq 0 (length xs)) xs); r_ops := []; r_ins := seq 0 (length xs); r_dry := false |}.
Proof. intros ND. unfold rst_in, rst0. rewrite inputs_go; auto. Qed.
Lemma rst_in_find xs x : NoDup (map fst xs) -> match find x (r_map (rst_in xs)) with Some i => exists v, nth_error xs i = Some (x, v) /\ types_of xs x = v | None => ~ In x (map fst xs) /\ types_of xs x = Void end.
Proof.
  intros ND. rewrite rst_in_eq by assumption. cbn [r_map]. rewrite in_map_find; [|assumption|reflexivity].
  pose proof (combine_find xs 0 x) as CF. destruct (List.find _ (combine _ _)) as [p|] eqn:F; cbn [find].
  - destruct CF as (_ & B & D). rewrite Nat.sub_0_r in B. exists (snd (snd p)). split; [rewrite B, <- D; now destruct p as [? []]|].
    unfold types_of. apply nth_error_In in B. destruct (List.find (fun x0 => fst x0 =? x) xs) as [q|] eqn:F2.
    + apply find_some in F2. destruct F2 as [F2 F3]. apply N.eqb_eq in F3. destruct p as [j [y v]], q as [z w]. cbn [fst snd] in *. subst y z.
      clear - ND B F2. induction xs as [|u xs IH]; [contradiction|]. cbn [map] in ND. apply NoDup_cons_iff in ND. destruct ND as [NI ND].
      destruct B as [-> |B], F2 as [X|F2]; [congruence| | |now apply IH].
      * exfalso. apply NI. apply (in_map fst) in F2. exact F2.
      * subst u. exfalso. apply NI. apply (in_map fst) in B. exact B.
    + exfalso. pose proof (List.find_none _ _ F2 _ B) as X. cbn beta in X. rewrite D in X. rewrite N.eqb_refl in X. discriminate.
  - split; [exact CF|]. unfold types_of. destruct (List.find (fun x0 => fst x0 =? x) xs) as [q|] eqn:F2; [|reflexivity]. exfalso. apply find_some in F2. destruct F2 as [F2 F3]. apply N.eqb_eq in F3. apply CF. rewrite <- F3. now apply in_map.
Qed.
Lemma minv_in xs : NoDup (map fst xs) -> minv (map fst xs) (rst_in xs) (fun x => In x (map fst xs)) (types_of xs).
Proof.
  intros ND. assert (L : length (r_vars (rst_in xs)) = length xs).
  { rewrite rst_in_eq by assumption. cbn [r_vars]. rewrite map_length, combine_length, seq_length. lia. }
  assert (GV : forall i x v, nth_error xs i = Some (x, v) -> get_var (rst_in xs) i = {| v_un := false; v_in := Some i; v_ty := v |}).
  { intros i x v E. unfold get_var. rewrite rst_in_eq by assumption. cbn [r_vars].
    assert (X : nth_error (combine (seq 0 (length xs)) xs) i = Some (i, (x, v))).
    { clear -E. assert (G : forall k, nth_error (combine (seq k (length xs)) xs) i = Some ((k + i)%nat, (x, v))); [|apply (G 0%nat)].
      revert i E. induction xs as [|u xs IH]; intros [|i] E k; cbn [nth_error length seq combine] in *; try discriminate.
      - injection E as ->. now rewrite Nat.add_0_r.
      - rewrite IH by assumption. do 2 f_equal. lia. }
    apply (map_nth_error (fun x => {| v_un := false; v_in := Some (fst x); v_ty := snd (snd x) |})) in X. now apply nth_error_nth with (d := var0) in X. }
  constructor.
  - rewrite rst_in_eq by assumption. cbn [r_map]. rewrite in_map_keys. cbn [map]. rewrite app_nil_r. now apply NoDup_rev.
  - intros x i E. pose proof (rst_in_find xs x ND) as F. rewrite E in F. destruct F as [v [F _]]. rewrite L. apply nth_error_Some. congruence.
  - intros x y i E1 E2. pose proof (rst_in_find xs x ND) as F1. rewrite E1 in F1. pose proof (rst_in_find xs y ND) as F2. rewrite E2 in F2.
    destruct F1 as [v [F1 _]], F2 as [w [F2 _]]. congruence.
  - intros x. pose proof (rst_in_find xs x ND) as F. destruct (find x (r_map (rst_in xs))) as [i|].
    + destruct F as [v [F _]]. split; [eauto|]. intros _. apply nth_error_In in F. apply (in_map fst) in F. exact F.
    + split; [tauto|]. intros [i X]. discriminate.
  - intros x i E. pose proof (rst_in_find xs x ND) as F. rewrite E in F. destruct F as [v [F1 F2]]. rewrite (GV _ _ _ F1). cbn [v_ty]. auto.
  - intros x H. pose proof (rst_in_find xs x ND) as F. destruct (find x (r_map (rst_in xs))) as [i|]; [|tauto]. destruct F as [v [F _]]. exfalso. apply H. apply nth_error_In in F. apply (in_map fst) in F. exact F.
  - rewrite rst_in_eq by assumption. cbn [r_vars]. apply Forall_map. apply Forall_forall. reflexivity.
  - intros i B. rewrite L in B. destruct (nth_error xs i) as [[x v]|] eqn:E; [|apply nth_error_None in E; lia]. rewrite (GV _ _ _ E). cbn [v_in]. rewrite map_length. destruct (Nat.ltb_spec i (length xs)); [reflexivity|lia].
  - rewrite map_length, L. lia.
  - intros x i E. pose proof (rst_in_find xs x ND) as F. rewrite E in F. destruct F as [v [F _]]. left. apply (map_nth_error fst) in F. exact F.
Qed.
