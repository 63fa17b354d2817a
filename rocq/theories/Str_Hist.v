(** Histories of text buffer operations refine plain texts. *)
From Coq Require Import String Ascii.
From Verif Require Import Base Bits FreeSlots_Model FreeSlots_Proofs Str_Model Str_Spec Str_Proofs Str_Num Str_Run Str_Fmt.
Local Open Scope N_scope.

Definition inv (b : sbuf) (t : list N) : Prop := contents b = t /\ s_cur b = len t /\ buf_ok b.

Lemma contents_len b : len (contents b) = s_cur b.
Proof. unfold contents. rewrite len_rd. lia. Qed.

Lemma appended_inv b t l b' : inv b t -> appended b l b' -> inv b' (t ++ l).
Proof.
  intros (C & S & B) (C' & S' & L & _). unfold inv. rewrite C', C, S', S, len_app. split; [reflexivity|]. split; [reflexivity|]. unfold buf_ok; lia.
Qed.

Lemma del_spec m f : forall cur, (N.to_nat cur <= f)%nat ->
  rd m 0 (N.to_nat (del_commas f m cur)) = rev (drop_commas (rev (rd m 0 (N.to_nat cur)))) /\ del_commas f m cur <= cur.
Proof.
  induction f as [|f IH]; intros cur L; cbn [del_commas].
  - assert (cur = 0) as -> by lia. split; [reflexivity|lia].
  - destruct (N.ltb_spec 0 cur) as [P|P].
    2: { assert (cur = 0) as -> by lia. split; [reflexivity|lia]. }
    replace (rd m 0 (N.to_nat cur)) with (rd m 0 (N.to_nat (cur - 1)) ++ [m (cur - 1)]).
    2: { replace (N.to_nat cur) with (N.to_nat (cur - 1) + 1)%nat by lia. rewrite rd_app. cbn [rd]. do 3 f_equal. lia. }
    rewrite rev_app_distr. cbn [rev app drop_commas].
    destruct ((m (cur - 1) =? 44) || (m (cur - 1) =? 32)).
    + destruct (IH (cur - 1)) as [A B]; [lia|]. split; [exact A|lia].
    + split; [|lia]. cbn [rev]. rewrite rev_involutive.
      replace (N.to_nat cur) with (N.to_nat (cur - 1) + 1)%nat by lia. rewrite rd_app. cbn [rd]. do 3 f_equal. lia.
Qed.

Lemma step_ok b t o t' : inv b t -> op_ok t o -> abs_step t o = Some t' ->
  exists b', step b o = Some b' /\ inv b' t' /\
    (terminates o = true -> terminated b').
Proof.
  intros I O A. pose proof I as (C & S & B).
  assert (P61 : 2 ^ 61 = 2305843009213693952) by reflexivity.
  assert (P62 : 2 ^ 62 = 4611686018427387904) by reflexivity.
  assert (P63 : 2 ^ 63 = 9223372036854775808) by reflexivity.
  destruct o as [s|n|n|n|n| | |k|st tg|e f a]; cbn [step abs_step op_ok terminates] in *.
  - injection A as <-. destruct (put_str_ok b s) as (b' & E & Ap & Z); [lia|].
    exists b'. split; [exact E|]. split; [eapply appended_inv; eauto|]. intros _. right. split; [exact Z|]. apply Ap.
  - destruct (N.ltb_spec n (2 ^ 32)); [|discriminate]. injection A as <-.
    destruct (put_num_ok w_u32 (numeral 10 n) b n 10) as (b' & E & Ap); [now apply writes_u32_10|now apply u32_len|lia|].
    exists b'. split; [exact E|]. split; [eapply appended_inv; eauto|discriminate].
  - destruct (N.ltb_spec n (2 ^ 64)); [|discriminate]. injection A as <-.
    destruct (put_num_ok w_u64 (numeral 10 n) b n 20) as (b' & E & Ap); [now apply writes_u64_20|now apply u64_len|lia|].
    exists b'. split; [exact E|]. split; [eapply appended_inv; eauto|discriminate].
  - destruct (N.ltb_spec n (2 ^ 32)); [|discriminate]. injection A as <-.
    destruct (put_num_ok w_x64 (numeral 16 n) b n 8) as (b' & E & Ap);
      [eapply writes_weaken; [apply writes_x64; lia|now apply x32_len]|now apply x32_len|lia|].
    exists b'. split; [exact E|]. split; [eapply appended_inv; eauto|discriminate].
  - destruct (N.ltb_spec n (2 ^ 64)); [|discriminate]. injection A as <-.
    destruct (put_num_ok w_x64 (numeral 16 n) b n 16) as (b' & E & Ap);
      [eapply writes_weaken; [apply writes_x64; lia|now apply x64_len]|now apply x64_len|lia|].
    exists b'. split; [exact E|]. split; [eapply appended_inv; eauto|discriminate].
  - injection A as <-. eexists. split; [reflexivity|]. split; [|discriminate].
    unfold delete_trailing_commas. destruct (del_spec (s_mem b) (N.to_nat (s_cur b)) (s_cur b)) as [D L]; [lia|].
    assert (CC : rd (s_mem b) 0 (N.to_nat (s_cur b)) = t) by exact C. rewrite CC in D.
    unfold inv, contents, buf_ok in *. cbn [s_mem s_cap s_cur]. split; [exact D|]. split; [|lia].
    rewrite <- D, len_rd. lia.
  - injection A as <-. unfold clear. destruct (N.eqb_spec (s_cap b) 0).
    + eexists. split; [reflexivity|]. split; [unfold inv, buf_ok|intros _; left]; cbn; repeat split; lia.
    + rewrite st_ok by lia. cbn [bind]. eexists. split; [reflexivity|]. split; [|intros _; right].
      * unfold inv, buf_ok; cbn. repeat split; lia.
      * cbn [s_mem s_cur s_cap]. split; [reflexivity|lia].
  - destruct (N.leb_spec k (len t)); [|discriminate]. injection A as <-.
    unfold rewind. destruct (N.ltb_spec (s_cur b) k); [lia|].
    unfold rewind_to. unfold buf_ok in B. destruct (N.eqb_spec (s_cap b) 0).
    + assert (Z : s_cur b = 0) by lia.
      eexists. split; [reflexivity|]. cbn [s_mem s_cur s_cap]. split; [|intros _; left; cbn; lia].
      unfold inv, buf_ok, contents; cbn [s_mem s_cur s_cap].
      assert (t = []) as -> by (destruct t; [reflexivity|rewrite len_cons in *; lia]).
      rewrite firstn_nil. change (len (@nil N)) with 0 in *. replace (s_cur b - k) with 0 by lia.
      split; [reflexivity|]. split; [reflexivity|lia].
    + rewrite st_ok by lia. cbn [bind]. eexists. split; [reflexivity|]. split.
      2: { intros _; right. cbn [s_mem s_cur s_cap]. split; [now rewrite N.eqb_refl|lia]. }
      unfold inv, buf_ok, contents; cbn [s_mem s_cur s_cap]. split; [|split; [|lia]].
      * assert (CC : rd (s_mem b) 0 (N.to_nat (s_cur b)) = t) by exact C.
        rewrite <- S. rewrite <- CC, <- rd_firstn by lia.
        apply rd_ext. intros i Hi. destruct (N.eqb_spec i (s_cur b - k)); [lia|reflexivity].
      * unfold len at 1. rewrite firstn_length. unfold len in *. lia.
  - destruct (N.leb_spec tg st), (N.leb_spec st (len t)); cbn [andb] in A; try discriminate. injection A as <-.
    unfold buf_ok in B. destruct (move_ok b st tg) as (b' & E & S' & Z & L & C'); [lia|lia|lia|].
    exists b'. split; [exact E|]. rewrite C in C'. split; [|intros _; right; auto].
    split; [exact C'|]. split; [|right; exact L]. rewrite <- C', contents_len. lia.
  - destruct O as (Oe & Of & Oa & Ol). destruct (fmt_text (x_llvm e) f a) as [x| |] eqn:T; try discriminate.
    injection A as <-.
    assert (F : fits b f a) by (unfold fits; lia).
    pose proof (claim_done b _ _ (fmt_ok _ _ b f a (agree_llvm e Oe) Of Oa F)) as H. rewrite T in H.
    destruct H as (b' & E & C' & S' & Z & L). unfold fmt_llvm. rewrite E. exists b'. split; [reflexivity|].
    split; [|intros _; right; auto]. rewrite C in C'. split; [exact C'|]. split; [rewrite len_app; lia|right; exact L].
Qed.

Lemma run_inv ops : forall b t t', inv b t -> texts t ops t' -> exists b', run b ops = Some b' /\ inv b' t'.
Proof.
  induction ops as [|o ops IH]; intros b t t' I T; inversion T as [|? ? ? ? ? P Q R]; subst; cbn [run]; [eauto|].
  destruct (step_ok b t o _ I P Q) as (b1 & E & I1 & _). rewrite E. cbn [bind]. eauto.
Qed.

Lemma texts_app a b t t' : texts t (a ++ b) t' -> exists u, texts t a u /\ texts u b t'.
Proof.
  revert t; induction a as [|o a IH]; intros t T; cbn [app] in T; [exists t; split; [constructor|exact T]|].
  inversion T as [|? ? ? ? ? P Q R]; subst. destruct (IH _ R) as (u & A & B). exists u. split; [econstructor; eauto|exact B].
Qed.

Lemma run_app a b s : run s (a ++ b) = let? s' := run s a in run s' b.
Proof. revert s; induction a as [|o a IH]; intros s; cbn [app run bind]; [reflexivity|]. destruct (step s o); cbn [bind]; auto. Qed.

Lemma run_terminated ops o b t t' : inv b t -> texts t (ops ++ [o]) t' -> terminates o = true ->
  exists b', run b (ops ++ [o]) = Some b' /\ inv b' t' /\ terminated b'.
Proof.
  intros I T H. destruct (texts_app _ _ _ _ T) as (u & A & B).
  destruct (run_inv ops b t u I A) as (b1 & E1 & I1). inversion B as [|? ? ? ? ? P Q R]; subst. inversion R; subst.
  destruct (step_ok b1 u o t' I1 P Q) as (b2 & E2 & I2 & T2).
  exists b2. rewrite run_app, E1. cbn [bind run]. rewrite E2. cbn [bind]. auto.
Qed.

Lemma fresh_inv b : fresh_buf b -> inv b [].
Proof.
  intros [C H]. unfold inv, contents, buf_ok. rewrite C. split; [reflexivity|]. split; [reflexivity|]. lia.
Qed.

Lemma hist_contents ops b t : fresh_buf b -> texts [] ops t ->
  exists b', run b ops = Some b' /\ contents b' = t /\ s_cur b' = len t.
Proof. intros F T. destruct (run_inv ops b [] t (fresh_inv b F) T) as (b' & E & C & S & _). eauto. Qed.

Lemma hist_terminated ops o b t : fresh_buf b -> texts [] (ops ++ [o]) t -> terminates o = true ->
  exists b', run b (ops ++ [o]) = Some b' /\ contents b' = t /\ terminated b'.
Proof.
  intros F T H. destruct (run_terminated ops o b [] t (fresh_inv b F) T H) as (b' & E & (C & _) & Z). eauto.
Qed.

Lemma hist_refuted : exists ops b' t l,
  fresh_buf (mkSB (fun _ => 1) 0 0) /\ texts [] ops t /\ run (mkSB (fun _ => 1) 0 0) ops = Some b' /\
  contents b' = t /\ c_string b' l /\ l <> t.
Proof.
  destruct (run (mkSB (fun _ => 1) 0 0) [SPut (str "hello"); SRewind 5; SU32 7]) as [b'|] eqn:E.
  2: { vm_compute in E. discriminate. }
  exists [SPut (str "hello"); SRewind 5; SU32 7], b', (str "7"), (str "77llo").
  split; [split; [reflexivity|left; reflexivity]|]. split.
  { repeat (econstructor; [vm_compute; reflexivity|vm_compute; reflexivity|]). constructor. }
  split; [exact E|]. vm_compute in E. injection E as <-. unfold contents, c_string. split; [vm_compute; reflexivity|].
  split; [|vm_compute; discriminate].
  split; [vm_compute; reflexivity|]. split; [vm_compute; reflexivity|]. split; [|vm_compute; reflexivity].
  cbn. intros H. repeat (destruct H as [H|H]; [discriminate|]). exact H.
Qed.
