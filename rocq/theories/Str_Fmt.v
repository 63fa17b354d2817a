(** Buffer growth, put(), the formatters, move_suffix. *)
From Coq Require Import String Ascii.
From Verif Require Import Base Bits FreeSlots_Model FreeSlots_Proofs Str_Model Str_Spec Str_Proofs Str_Num Str_Run.
Local Open Scope N_scope.

(** ** Growth *)

Lemma grow_ok f : forall need cap, 1 <= cap -> need <= 2 ^ 63 -> need <= cap * 2 ^ N.of_nat f ->
  exists c, grow (S f) need cap = Some c /\ need <= c /\ cap <= c.
Proof.
  induction f as [|f IH]; intros need cap H1 H2 H3.
  - change (2 ^ N.of_nat 0) with 1 in H3. cbn [grow]. destruct (N.ltb_spec cap need); [lia|]. exists cap. split; [reflexivity|lia].
  - cbn [grow]. destruct (N.ltb_spec cap need) as [L|L]; [|exists cap; split; [reflexivity|lia]].
    rewrite u64_small by (change (2 ^ 63) with 9223372036854775808 in *; change (2 ^ 64) with 18446744073709551616; lia).
    destruct (IH need (cap * 2)) as (c & E & A & B); [lia|lia| |].
    + rewrite Nat2N.inj_succ, N.pow_succ_r' in H3. lia.
    + cbn [grow] in E. exists c. split; [exact E|lia].
Qed.

Lemma expand_ok b cur n : cur + n < 2 ^ 63 ->
  exists c, expand b cur n = Some (mkSB (s_mem b) c cur) /\ cur + n < c /\ s_cap b <= c.
Proof.
  intros H. unfold expand. change (2 ^ 63) with 9223372036854775808 in H.
  rewrite (u64_small (n + 1)) by (change (2 ^ 64) with 18446744073709551616; lia).
  rewrite (u64_small (cur + (n + 1))) by (change (2 ^ 64) with 18446744073709551616; lia).
  set (c0 := match s_cap b =? 0 with true => 1 | false => s_cap b end).
  assert (1 <= c0 /\ s_cap b <= c0) as [A B] by (unfold c0; destruct (N.eqb_spec (s_cap b) 0); lia).
  destruct (grow_ok 64 (cur + (n + 1)) c0) as (c & E & P & Q); [assumption| | |].
  - change (2 ^ 63) with 9223372036854775808. lia.
  - change (2 ^ N.of_nat 64) with 18446744073709551616. lia.
  - change (if s_cap b =? 0 then 1 else s_cap b) with c0. rewrite E. cbn [bind]. exists c. repeat split; lia.
Qed.

Lemma reserve_ok b n : s_cur b + n < 2 ^ 63 ->
  exists c, reserve b n = Some (mkSB (s_mem b) c (s_cur b)) /\ s_cur b + n < c /\ s_cap b <= c.
Proof.
  intros H. unfold reserve. destruct (N.eqb_spec (s_cap b) 0); [now apply expand_ok|].
  cbn [orb]. destruct (N.leb_spec (s_cap b) (s_cur b + n)); [now apply expand_ok|].
  exists (s_cap b). destruct b; cbn in *. repeat split; lia.
Qed.

Lemma contents_app m cur l : rd m cur (length l) = l ->
  rd m 0 (N.to_nat (cur + len l)) = rd m 0 (N.to_nat cur) ++ l.
Proof.
  intros R. replace (N.to_nat (cur + len l)) with (N.to_nat cur + length l)%nat by (unfold len; lia).
  rewrite rd_app. f_equal. rewrite N2Nat.id, N.add_0_l. exact R.
Qed.

Definition appended (b : sbuf) (l : list N) (b' : sbuf) : Prop :=
  contents b' = contents b ++ l /\ s_cur b' = s_cur b + len l /\ s_cur b' < s_cap b' /\ s_cap b <= s_cap b'.

Lemma put_str_ok b s : s_cur b + len s < 2 ^ 63 ->
  exists b', put_str b s = Some b' /\ appended b s b' /\ s_mem b' (s_cur b') = 0.
Proof.
  intros H. unfold put_str. destruct (reserve_ok b (len s) H) as (c & E & L & Lc). rewrite E. cbn [bind s_cap s_mem s_cur].
  destruct (stl_ok s c (s_mem b) (s_cur b)) as (m1 & E1 & R1 & F1); [lia|].
  rewrite E1. cbn [bind]. rewrite st_ok by lia. cbn [bind]. eexists. split; [reflexivity|].
  unfold appended, contents. cbn [s_cap s_mem s_cur]. split; [split|].
  - rewrite contents_app.
    + f_equal. apply rd_ext. intros i Hi. destruct (N.eqb_spec i (s_cur b + len s)); [lia|]. apply F1. lia.
    + rewrite <- R1 at 2. apply rd_ext. intros i Hi. destruct (N.eqb_spec i (s_cur b + len s)); [unfold len in *; lia|reflexivity].
  - lia.
  - now rewrite N.eqb_refl.
Qed.

Lemma put_num_ok (w : N -> mem -> N -> N -> option (mem * N)) l b v k :
  writes (fun cap m d => w cap m d v) l k -> len l <= k -> s_cur b + k < 2 ^ 63 ->
  exists b', put_num w k b v = Some b' /\ appended b l b'.
Proof.
  intros W L H. unfold put_num. destruct (reserve_ok b k H) as (c & E & Lc & Lc'). rewrite E. cbn [bind s_cap s_mem s_cur].
  destruct (W c (s_mem b) (s_cur b)) as (m1 & E1 & R1 & F1); [lia|].
  rewrite E1. cbn [bind fst snd]. eexists. split; [reflexivity|].
  unfold appended, contents. cbn [s_cap s_mem s_cur]. split; [|lia].
  rewrite contents_app by assumption. f_equal. apply rd_ext. intros; apply F1; lia.
Qed.

(** ** Type names *)

Lemma writes_row (s : string) : len (str s) <= 6 -> writes (fun cap m d => w_type cap m d (row s)) (str s) 8.
Proof.
  intros L cap m b B. unfold w_type. unfold len in L.
  assert (Lr : length (firstn 7 (str s ++ repeat 0 7)) = 7%nat) by (rewrite firstn_length, app_length, repeat_length; lia).
  assert (L8 : length (row s) = 8%nat) by (unfold row; rewrite app_length, Lr; reflexivity).
  destruct (stl_ok (row s) cap m b) as (m' & E & R & F); [unfold len; rewrite L8; exact B|].
  rewrite E. cbn [bind].
  assert (N7 : nth_error (row s) 7 = Some (len (str s))).
  { unfold row. rewrite nth_error_app2 by lia. rewrite Lr. reflexivity. }
  rewrite N7. cbn [bind]. exists m'. split; [reflexivity|]. split.
  - rewrite (rd_firstn m' b _ (length (row s))), R by lia. unfold row.
    rewrite (firstn_app (length (str s)) (firstn 7 (str s ++ repeat 0 7))), Lr. replace (length (str s) - 7)%nat with O by lia. rewrite firstn_O, app_nil_r.
    rewrite firstn_firstn. replace (Nat.min (length (str s)) 7) with (length (str s)) by lia.
    rewrite firstn_app, Nat.sub_diag, firstn_O. now rewrite app_nil_r, firstn_all.
  - intros i Hi. apply F. unfold len. rewrite L8. lia.
Qed.

Lemma writes_wty names i : forallb (fun s => len (str s) <=? 6) names = true -> i < len names ->
  writes (wty (map row names) i) (nm names i) 8 /\ len (nm names i) <= 6.
Proof.
  intros H L. unfold nm, wty, tbl.
  destruct (nth_error names (N.to_nat i)) as [s|] eqn:E.
  2: { apply nth_error_None in E. unfold len in L. lia. }
  rewrite (map_nth_error _ _ _ E). rewrite forallb_forall in H.
  specialize (H s (nth_error_In _ _ E)). apply N.leb_le in H. split; [|exact H]. cbn [bind]. now apply writes_row.
Qed.

Ltac tyname := intros; apply writes_wty; [reflexivity|assumption].
Lemma ty_llvm i : i < 16 -> writes (wty t_llvm i) (n_llvm i) 8 /\ len (n_llvm i) <= 6. Proof. tyname. Qed.
Lemma ty_big i : i < 16 -> writes (wty t_big i) (n_big i) 8 /\ len (n_big i) <= 6. Proof. tyname. Qed.
Lemma ty_abbrev i : i < 16 -> writes (wty t_abbrev i) (n_abbrev i) 8 /\ len (n_abbrev i) <= 6. Proof. tyname. Qed.
Lemma ty_bin i : i < 16 -> writes (wty t_bin i) (n_bin i) 8 /\ len (n_bin i) <= 6. Proof. tyname. Qed.
Lemma ty_prefix i : i < 16 -> writes (wty t_prefix i) (n_prefix i) 8 /\ len (n_prefix i) <= 6. Proof. tyname. Qed.
Lemma ty_ptx i : i < 16 -> writes (wty t_ptx i) (n_ptx i) 8 /\ len (n_ptx i) <= 6. Proof. tyname. Qed.
Lemma ty_ptx_bin i : i < 16 -> writes (wty t_ptx_bin i) (n_ptx_bin i) 8 /\ len (n_ptx_bin i) <= 6. Proof. tyname. Qed.
Lemma ty_ptx_bin2 i : i < 16 -> writes (wty t_ptx_bin2 i) (n_ptx_bin2 i) 8 /\ len (n_ptx_bin2 i) <= 6. Proof. tyname. Qed.
Lemma ty_metal i : i < 16 -> writes (wty t_metal i) (n_metal i) 8 /\ len (n_metal i) <= 6. Proof. tyname. Qed.
Lemma ty_metal_bin i : i < 16 -> writes (wty t_metal_bin i) (n_metal_bin i) 8 /\ len (n_metal_bin i) <= 6. Proof. tyname. Qed.

Lemma len_str s : len (str s) = N.of_nat (String.length s).
Proof.
  unfold len, str. rewrite map_length. f_equal. induction s; cbn; auto.
Qed.

(** A write that fits a budget of [w] bytes, text included. *)
Definition wok (f : wr) (l : list N) (w : N) : Prop := writes f l w /\ len l <= w.

Lemma wok_weaken f l w w' : wok f l w -> w <= w' -> wok f l w'.
Proof. intros [A B] L. split; [eapply writes_weaken; eauto|lia]. Qed.

Lemma wok_ty t n i : writes (wty t i) (n i) 8 /\ len (n i) <= 6 -> wok (wty t i) (n i) 8.
Proof. intros [A B]. split; [exact A|lia]. Qed.

Lemma wok_u32 n : n < 2 ^ 32 -> wok (wu32 n) (numeral 10 n) 10.
Proof. intros. split; [now apply writes_u32_10|now apply u32_len]. Qed.

Lemma wok_u64 n : n < 2 ^ 64 -> wok (wu64 n) (numeral 10 n) 20.
Proof. intros. split; [now apply writes_u64_20|now apply u64_len]. Qed.

Lemma wok_x64 n : n < 2 ^ 64 -> wok (wx64 n) (numeral 16 n) 16.
Proof.
  intros. pose proof (x64_len n H). split; [|assumption]. eapply writes_weaken; [now apply writes_x64|assumption].
Qed.

Lemma wok_wc l w : len l = w -> wok (wc l) l w.
Proof. intros <-. split; [apply writes_wc|lia]. Qed.

Ltac wcl := match goal with |- wok (wc ?l) _ _ => let w := eval vm_compute in (len l) in apply (wok_wc l w); reflexivity end.

Lemma wok_seq f g l1 l2 w1 w2 : wok f l1 w1 -> wok g l2 w2 -> wok (f ;; g) (l1 ++ l2) (w1 + w2).
Proof.
  intros [A B] [C D]. split; [|rewrite len_app; lia].
  eapply writes_seq; eauto; lia.
Qed.

Lemma wok_vec e t n i : e_width e < 2 ^ 32 -> wok (wty t i) (n i) 8 -> wok (wvec e t i) (vec e (n i)) 23.
Proof.
  intros H W. unfold wvec, vec. change 23 with (1 + (10 + (3 + (8 + 1)))).
  repeat apply wok_seq; try (wcl); auto. now apply wok_u32.
Qed.

(** ** Dialects *)

Definition agree (D : dialect) (X : tdialect) : Prop :=
  (forall c, match d_noarg D c, x_noarg X c with
             | Some w, Some t => wok w t 16
             | None, None => True | _, _ => False end) /\
  (forall c v, var_ok v ->
             match d_var D c v, x_var X c v with
             | Some w, Some t => wok w t 64
             | None, None => True | _, _ => False end) /\
  d_q D = x_q X.

Ltac bad_char c :=
  destruct c as [|p]; [reflexivity|]; do 7 (try destruct p as [p|p|]; try reflexivity); exfalso; congruence.

Lemma llvm_noarg_none e c : c <> 119 -> c <> 122 -> c <> 60 -> c <> 62 -> llvm_noarg e c = None.
Proof. intros. unfold llvm_noarg. bad_char c. Qed.

Lemma llvm_var_none e c v :
  c <> 116 -> c <> 98 -> c <> 100 -> c <> 72 -> c <> 104 -> c <> 109 -> c <> 84 -> c <> 66 ->
  c <> 68 -> c <> 77 -> c <> 118 -> c <> 86 -> c <> 108 -> c <> 97 -> c <> 65 -> c <> 111 ->
  llvm_var e c v = None.
Proof. intros. unfold llvm_var. bad_char c. Qed.

Lemma cuda_var_none c v :
  c <> 116 -> c <> 66 -> c <> 98 -> c <> 86 -> c <> 118 -> c <> 108 -> c <> 97 -> c <> 111 ->
  cuda_var c v = None.
Proof. intros. unfold cuda_var. bad_char c. Qed.

Lemma metal_var_none c v :
  c <> 116 -> c <> 98 -> c <> 118 -> c <> 108 -> c <> 111 -> metal_var c v = None.
Proof. intros. unfold metal_var. bad_char c. Qed.

Lemma size_tbl t : t < 16 -> tbl t_size t = Some (size_of t) /\ size_of t <= 8.
Proof.
  intros H. assert (E : forall q, q < 16 ->
    (fun q => match tbl t_size q with Some s => (s =? size_of q) && (size_of q <=? 8) | None => false end) q = true).
  { apply (all_lt 16). vm_compute. reflexivity. }
  specialize (E t H). cbv beta in E. destruct (tbl t_size t); [|discriminate].
  apply andb_true_iff in E. rewrite N.eqb_eq, N.leb_le in E. destruct E as [-> E]. auto.
Qed.

Lemma wok_ext f g l w : (forall cap m b, f cap m b = g cap m b) -> wok g l w -> wok f l w.
Proof. intros E [A B]. split; [eapply writes_ext; eauto|exact B]. Qed.

Ltac eqc c k :=
  let E := fresh "NE" in
  destruct (N.eqb_spec c k) as [->|E]; [|].

Lemma code_eval : (code "t", code "b", code "d", code "H", code "h", code "m", code "T", code "B",
                   code "D", code "M", code "v", code "V", code "l", code "a", code "A", code "o",
                   code "w", code "z", code "<", code ">") =
  (116, 98, 100, 72, 104, 109, 84, 66, 68, 77, 118, 86, 108, 97, 65, 111, 119, 122, 60, 62).
Proof. reflexivity. Qed.

Ltac codes :=
  change (code "t") with 116; change (code "b") with 98; change (code "d") with 100;
  change (code "H") with 72; change (code "h") with 104; change (code "m") with 109;
  change (code "T") with 84; change (code "B") with 66; change (code "D") with 68;
  change (code "M") with 77; change (code "v") with 118; change (code "V") with 86;
  change (code "l") with 108; change (code "a") with 97; change (code "A") with 65;
  change (code "o") with 111; change (code "w") with 119; change (code "z") with 122;
  change (code "<") with 60; change (code ">") with 62.

Lemma agree_llvm e : env_ok e -> agree (d_llvm e) (x_llvm e).
Proof.
  intros (HW & H32 & H16). split; [|split; [|reflexivity]].
  - intros c. cbn [d_noarg d_llvm x_noarg x_llvm]. unfold llvm_text0. codes.
    destruct (N.eqb_spec c 119) as [->|?].
    { eapply wok_weaken; [now apply wok_u32|lia]. }
    destruct (N.eqb_spec c 122) as [->|?].
    { eapply wok_weaken; [wcl|lia]. }
    destruct (N.eqb_spec c 60) as [->|?].
    { cbn [llvm_noarg]. destruct (0 <? e_depth e).
      - eapply wok_weaken; [repeat apply wok_seq; try (wcl); now apply wok_u32|lia].
      - eapply wok_weaken; [wcl|lia]. }
    destruct (N.eqb_spec c 62) as [->|?].
    { cbn [llvm_noarg]. destruct (0 <? e_depth e); (eapply wok_weaken; [wcl|lia]). }
    rewrite llvm_noarg_none by assumption. exact I.
  - intros c v (HT & HR & HL & HO). cbn [d_var d_llvm x_var x_llvm]. unfold llvm_text. codes.
    assert (M8 : (if v_type v =? 1 then 4 else v_type v) < 16) by (destruct (v_type v =? 1); lia).
    Local Ltac one := eapply wok_weaken; [apply wok_ty|lia].
    destruct (N.eqb_spec c 116) as [->|?]. { one. now apply ty_llvm. }
    destruct (N.eqb_spec c 98) as [->|?]. { one. now apply ty_bin. }
    destruct (N.eqb_spec c 100) as [->|?]. { one. now apply ty_big. }
    destruct (N.eqb_spec c 72) as [->|?].
    { cbn [llvm_var]. unfold T_Bool. destruct (N.eqb_spec (v_type v) 1).
      - eapply wok_weaken; [change (n_abbrev 4) with (str "i8"); wcl|lia].
      - one. now apply ty_abbrev. }
    destruct (N.eqb_spec c 104) as [->|?]. { one. now apply ty_abbrev. }
    destruct (N.eqb_spec c 109) as [->|?]. { one. now apply ty_llvm. }
    Local Ltac onev := eapply wok_weaken; [apply wok_vec; [assumption|apply wok_ty]|lia].
    destruct (N.eqb_spec c 84) as [->|?]. { onev. now apply ty_llvm. }
    destruct (N.eqb_spec c 66) as [->|?]. { onev. now apply ty_bin. }
    destruct (N.eqb_spec c 68) as [->|?]. { onev. now apply ty_big. }
    destruct (N.eqb_spec c 77) as [->|?]. { onev. now apply ty_llvm. }
    destruct (N.eqb_spec c 118) as [->|?].
    { eapply wok_weaken; [apply wok_seq; [apply wok_ty; now apply ty_prefix|now apply wok_u32]|lia]. }
    destruct (N.eqb_spec c 86) as [->|?].
    { eapply wok_weaken; [apply wok_seq; [apply wok_vec; [assumption|apply wok_ty; now apply ty_llvm]|
        apply wok_seq; [wcl|
        apply wok_seq; [apply wok_ty; now apply ty_prefix|now apply wok_u32]]]|lia]. }
    destruct (N.eqb_spec c 108) as [->|?].
    { cbn [llvm_var]. unfold wlit, T_F32, T_F16, T_F64.
      destruct (v_type v =? 14).
      { eapply wok_weaken; [apply wok_seq; [wcl|apply wok_x64; apply H32]|lia]. }
      destruct (v_type v =? 13).
      { eapply wok_weaken; [apply wok_seq; [wcl|apply wok_x64; apply H16]|lia]. }
      destruct (v_type v =? 15).
      { eapply wok_weaken; [apply wok_seq; [wcl|now apply wok_x64]|lia]. }
      eapply wok_weaken; [now apply wok_u64|lia]. }
    destruct (size_tbl _ HT) as [SE SL].
    destruct (N.eqb_spec c 97) as [->|?].
    { cbn [llvm_var]. rewrite SE. cbn [bind]. eapply wok_weaken; [apply wok_u32; destruct (v_unaligned v); lia|lia]. }
    destruct (N.eqb_spec c 65) as [->|?].
    { cbn [llvm_var]. rewrite SE. cbn [bind]. eapply wok_weaken; [apply wok_u32|lia].
      destruct (v_unaligned v); [lia|]. apply N.mod_lt. lia. }
    destruct (N.eqb_spec c 111) as [->|?].
    { eapply wok_weaken; [apply wok_u32|lia]. eapply N.le_lt_trans; [apply N.div_le_upper_bound|exact HO]; lia. }
    rewrite llvm_var_none by assumption. exact I.
Qed.

Lemma agree_cuda : agree d_cuda x_cuda.
Proof.
  split; [|split; [|reflexivity]].
  - intros c. exact I.
  - intros c v (HT & HR & HL & HO). cbn [d_var d_cuda x_var x_cuda]. unfold cuda_text. codes.
    destruct (N.eqb_spec c 116) as [->|?]. { one. now apply ty_ptx. }
    destruct (N.eqb_spec c 66) as [->|?]. { one. now apply ty_ptx_bin2. }
    destruct (N.eqb_spec c 98) as [->|?]. { one. now apply ty_ptx_bin. }
    destruct (N.eqb_spec c 86) as [->|?].
    { cbn [cuda_var]. unfold T_Bool. destruct (v_type v =? 1).
      - eapply wok_weaken; [wcl|lia].
      - eapply wok_weaken; [apply wok_seq; [apply wok_ty; now apply ty_prefix|now apply wok_u32]|lia]. }
    destruct (N.eqb_spec c 118) as [->|?].
    { eapply wok_weaken; [apply wok_seq; [apply wok_ty; now apply ty_prefix|now apply wok_u32]|lia]. }
    destruct (N.eqb_spec c 108) as [->|?].
    { eapply wok_weaken; [apply wok_seq; [wcl|now apply wok_x64]|lia]. }
    destruct (size_tbl _ HT) as [SE SL].
    destruct (N.eqb_spec c 97) as [->|?].
    { cbn [cuda_var]. rewrite SE. cbn [bind]. eapply wok_weaken; [apply wok_u32; lia|lia]. }
    destruct (N.eqb_spec c 111) as [->|?]. { eapply wok_weaken; [now apply wok_u32|lia]. }
    rewrite cuda_var_none by assumption. exact I.
Qed.

Lemma agree_metal : agree d_metal x_metal.
Proof.
  split; [|split; [|reflexivity]].
  - intros c. exact I.
  - intros c v (HT & HR & HL & HO). cbn [d_var d_metal x_var x_metal]. unfold metal_text. codes.
    destruct (N.eqb_spec c 116) as [->|?]. { one. now apply ty_metal. }
    destruct (N.eqb_spec c 98) as [->|?]. { one. now apply ty_metal_bin. }
    destruct (N.eqb_spec c 118) as [->|?].
    { eapply wok_weaken; [apply wok_seq; [wcl|now apply wok_u32]|lia]. }
    destruct (N.eqb_spec c 108) as [->|?].
    { eapply wok_weaken; [apply wok_seq; [wcl|now apply wok_x64]|lia]. }
    destruct (N.eqb_spec c 111) as [->|?].
    { cbn [metal_var]. unfold sub32, u32. eapply wok_weaken; [apply wok_u32; apply N.mod_lt; lia|lia]. }
    rewrite metal_var_none by assumption. exact I.
Qed.

(** ** The loop *)

Definition post (m : mem) (cur : N) (t : list N) (r : fres) : Prop :=
  exists b', r = Done b' /\ s_cur b' = cur + len t /\ rd (s_mem b') cur (length t) = t /\
    (forall i, i < cur -> s_mem b' i = m i) /\ s_mem b' (s_cur b') = 0 /\ s_cur b' < s_cap b'.
Definition claim (m : mem) (cur : N) (T : ftext) (r : fres) : Prop :=
  match T with Ok t => post m cur t r | Bad => r = Abort | NoClaim => True end.

Lemma claim_pre m m1 cur t1 T r :
  rd m1 cur (length t1) = t1 -> (forall i, i < cur -> m1 i = m i) ->
  claim m1 (cur + len t1) T r -> claim m cur (pre t1 T) r.
Proof.
  intros R F H. destruct T as [t| |]; cbn [pre claim] in *; auto.
  destruct H as (b & E & C & R2 & F2 & Z & L). exists b. split; [exact E|]. rewrite len_app.
  split; [lia|]. split; [|split; [|auto]].
  - rewrite app_length, rd_app. fold (len t1). rewrite R2. f_equal. rewrite <- R at 2. apply rd_ext.
    intros i Hi. apply F2. unfold len. lia.
  - intros i Hi. rewrite F2 by lia. now apply F.
Qed.

Lemma pre_pre a b T : pre a (pre b T) = pre (a ++ b) T.
Proof. destruct T; cbn; auto. now rewrite app_assoc. Qed.
Lemma pre_nil T : pre [] T = T. Proof. destruct T; reflexivity. Qed.

Lemma text_run X p args : fmt_text X p args = pre (firstn (run_len p) p) (fmt_text X (skipn (run_len p) p) args).
Proof.
  induction p as [|c p IH]; [cbn; now rewrite pre_nil|].
  cbn [run_len]. unfold DOLLAR. destruct (N.eqb_spec c 36) as [->|Hc].
  - cbn [firstn skipn]. now rewrite pre_nil.
  - cbn [firstn skipn fmt_text]. rewrite (proj2 (N.eqb_neq c 36) Hc). cbn [negb]. rewrite IH, pre_pre. reflexivity.
Qed.

Lemma end_ok X b cur args : cur < s_cap b -> claim (s_mem b) cur (fmt_text X [] args) (fmt_end b cur args).
Proof.
  intros H. destruct args; cbn; [|reflexivity]. rewrite st_ok by assumption. cbn [lift].
  eexists. split; [reflexivity|]. cbn [s_cur s_mem s_cap]. unfold len; cbn [length]. change (N.of_nat 0) with 0.
  rewrite N.add_0_r. repeat split; auto.
  - intros i Hi. destruct (N.eqb_spec i cur); [lia|reflexivity].
  - now rewrite N.eqb_refl.
Qed.

Definition strs (args : list farg) := sum_N (map str_size args).
Lemma strs_cons a args : strs (a :: args) = str_size a + strs args.
Proof. reflexivity. Qed.

Lemma var0_ok : var_ok (mkV 0 0 0 false 0).
Proof. unfold var_ok; cbn; lia. Qed.

Lemma fmt_bound_eq a b : a * 8 + b * 48 < 2 ^ 62 -> fmt_bound a b = a * 8 + b * 48.
Proof.
  intros H. unfold fmt_bound. change (2 ^ 62) with 4611686018427387904 in H.
  rewrite (u64_small (a * 8)) by (change (2 ^ 64) with 18446744073709551616; lia).
  rewrite (u64_small (b * 48)) by (change (2 ^ 64) with 18446744073709551616; lia).
  apply u64_small. change (2 ^ 64) with 18446744073709551616. lia.
Qed.

Lemma loop_ok D X : agree D X -> forall f b cur p args,
  (length p < f)%nat -> Forall byte p -> Forall arg_ok args ->
  cur + 8 * len p + 48 * len args < s_cap b ->
  cur + 8 * len p + 48 * len args + strs args < 2 ^ 62 ->
  claim (s_mem b) cur (fmt_text X p args) (fmt_loop f D b cur p args).
Proof.
  intros (A0 & AV & AQ). induction f as [|f IH]; intros b cur p args Hf B HA HC HS; [lia|].
  destruct p as [|c0 p0].
  { apply end_ok. lia. }
  set (p := c0 :: p0) in *.
  change (fmt_loop (S f) D b cur p args) with
    (lift (w_run (s_cap b) (s_mem b) cur p) (fun x =>
          let '(m, cur, p) := x in
          let b := mkSB m (s_cap b) (s_cur b) in
          let emit (w : wr) p args :=
            lift (w (s_cap b) m cur) (fun y =>
              fmt_loop f D (mkSB (fst y) (s_cap b) (s_cur b)) (snd y) p args) in
          match p with
          | [] => fmt_end b cur args
          | [_] => Abort
          | _ :: c :: p =>
              match kind_of D c, args with
              | KNone w, _ => emit w p args
              | KU32, AU32 n :: args => emit (wu32 n) p args
              | KU64, AU64 n :: args => emit (fun cap m d => w_q64 cap m d n) p args
              | KStr, AStr s :: args =>
                  let rest := fmt_bound (len p) (len args) in
                  lift (if s_cap b <=? cur + len s + rest then expand b cur (u64 (len s + rest))
                        else Some b) (fun b =>
                  lift (w_strn (s_cap b) (s_mem b) cur s) (fun y =>
                    fmt_loop f D (mkSB (fst y) (s_cap b) (s_cur b)) (snd y) p args))
              | KVar g, AVar v :: args =>
                  lift (g v) (fun w => emit w p args)
              | KBad, _ => Abort
              | _, _ => Undef
              end
          end)).
  destruct (run_ok (s_cap b) (s_mem b) cur p B ltac:(lia)) as (m1 & E1 & R1 & F1).
  rewrite E1. cbn [lift]. rewrite text_run.
  assert (Bs : Forall byte (skipn (run_len p) p)).
  { rewrite <- (firstn_skipn (run_len p) p) in B. apply Forall_app in B. tauto. }
  pose proof (run_le p) as Lr.
  assert (Ls : len (skipn (run_len p) p) + N.of_nat (run_len p) = len p) by (unfold len; rewrite skipn_length; lia).
  assert (Lf : len (firstn (run_len p) p) = N.of_nat (run_len p)) by (unfold len; rewrite firstn_length; lia).
  apply (claim_pre _ m1).
  { rewrite firstn_length. replace (Nat.min (run_len p) (length p)) with (run_len p) by lia. exact R1. }
  { intros; apply F1; lia. }
  rewrite Lf. set (cur1 := cur + N.of_nat (run_len p)) in *. cbn [s_cap s_mem s_cur].
  destruct (run_stop p) as [Es|(r & Es)]; rewrite Es in *.
  { change (len []) with 0 in Ls. apply (end_ok X (mkSB m1 (s_cap b) (s_cur b))). cbn [s_cap]. lia. }
  cbn [fmt_text]. change (DOLLAR =? 36) with true. cbn [negb].
  destruct r as [|c r]; [reflexivity|].
  rewrite !len_cons in Ls. assert (Br : Forall byte r) by (inversion Bs; subst; inversion H2; assumption).
  assert (Lfr : (length r < f)%nat) by (unfold len in Ls; lia).
  (* emission of a piece of text [t] within [w] bytes *)
  assert (EM : forall w t W args', wok w t W -> Forall arg_ok args' ->
     W + 48 * len args' <= 16 + 48 * len args -> strs args' <= strs args ->
     claim m1 cur1 (pre t (fmt_text X r args'))
       (lift (w (s_cap b) m1 cur1) (fun y => fmt_loop f D (mkSB (fst y) (s_cap b) (s_cur b)) (snd y) r args'))).
  { intros w t W args' [Ww Lw] HA' HB HS'.
    destruct (Ww (s_cap b) m1 cur1) as (m2 & E2 & R2 & F2); [lia|].
    rewrite E2. cbn [lift fst snd].
    apply (claim_pre _ m2); [exact R2|intros; apply F2; lia|].
    apply (IH (mkSB m2 (s_cap b) (s_cur b))); auto; cbn [s_cap]; lia. }
  unfold kind_of. specialize (A0 c).
  destruct (d_noarg D c) as [w|], (x_noarg X c) as [t|]; try contradiction.
  { apply (EM w t 16); auto; lia. }
  destruct (N.eqb_spec c 117) as [->|_].
  { destruct args as [|[n|n|s|v] args]; try exact I. inversion HA; subst.
    apply (EM (wu32 n) (numeral 10 n) 10); auto.
    - now apply wok_u32.
    - rewrite len_cons; lia.
    - rewrite strs_cons; lia. }
  destruct (N.eqb_spec c 115) as [->|_].
  { destruct args as [|[n|n|s|v] args]; try exact I. inversion HA; subst.
    rewrite strs_cons in HS. cbn [str_size] in HS. rewrite (len_cons (AStr s) args) in HC, HS.
    rewrite fmt_bound_eq by lia. remember (len r * 8 + len args * 48) as rest eqn:Er.
    rewrite u64_small by (change (2 ^ 62) with 4611686018427387904 in *; change (2 ^ 64) with 18446744073709551616; lia).
    assert (EX : exists c2, (if s_cap b <=? cur1 + len s + rest then expand (mkSB m1 (s_cap b) (s_cur b)) cur1 (len s + rest)
                             else Some (mkSB m1 (s_cap b) (s_cur b))) = Some (mkSB m1 (s_cap c2) (s_cur c2)) /\
                             cur1 + len s + rest < s_cap c2).
    { destruct (N.leb_spec (s_cap b) (cur1 + len s + rest)).
      - destruct (expand_ok (mkSB m1 (s_cap b) (s_cur b)) cur1 (len s + rest)) as (c2 & E & L1 & L2).
        { change (2 ^ 62) with 4611686018427387904 in *; change (2 ^ 63) with 9223372036854775808. lia. }
        exists (mkSB m1 c2 cur1). rewrite E. split; [reflexivity|]. cbn [s_cap]. lia.
      - exists b. split; [reflexivity|lia]. }
    destruct EX as (b2 & -> & Lb2). cbn [lift s_cap s_mem s_cur].
    destruct (writes_wc s (s_cap b2) m1 cur1) as (m2 & E2 & R2 & F2); [lia|].
    unfold wc in E2. rewrite E2. cbn [lift fst snd].
    apply (claim_pre _ m2); [exact R2|intros; apply F2; lia|].
    apply (IH (mkSB m2 (s_cap b2) (s_cur b2))); auto; cbn [s_cap]; lia. }
  rewrite AQ. destruct ((c =? 81) && x_q X).
  { destruct args as [|[n|n|s|v] args]; try exact I. inversion HA; subst.
    apply (EM (wq64 n) (padded 16 16 n) 16); auto.
    - split; [apply writes_q64|unfold len; rewrite padded_len; lia].
    - rewrite len_cons; lia.
    - rewrite strs_cons; lia. }
  pose proof (AV c _ var0_ok) as A1.
  destruct (d_var D c (mkV 0 0 0 false 0)), (x_var X c (mkV 0 0 0 false 0)); try contradiction.
  2: { destruct args as [|[] ?]; reflexivity. }
  destruct args as [|[n|n|s|v] args]; try exact I. inversion HA; subst.
  pose proof (AV c v H1) as A2. destruct (d_var D c v) as [wv|], (x_var X c v) as [tv|]; try contradiction; [|exact I].
  cbn [lift]. apply (EM wv tv 64); auto.
  - rewrite len_cons; lia.
  - rewrite strs_cons; lia.
Qed.

Lemma fmt_ok D X b p args : agree D X -> Forall byte p -> Forall arg_ok args -> fits b p args ->
  claim (s_mem b) (s_cur b) (fmt_text X p args) (fmt_run D b p args).
Proof.
  intros A B HA F. unfold fits in F. fold (strs args) in F. unfold fmt_run. rewrite fmt_bound_eq by lia.
  destruct (reserve_ok b (len p * 8 + len args * 48)) as (c & E & L & _).
  { change (2 ^ 62) with 4611686018427387904 in *; change (2 ^ 63) with 9223372036854775808. lia. }
  rewrite E. cbn [lift s_cur]. apply (loop_ok D X A (S (length p)) (mkSB (s_mem b) c (s_cur b))); auto; cbn [s_cap]; lia.
Qed.

Lemma claim_done b T r : claim (s_mem b) (s_cur b) T r ->
  match T with
  | Ok t => exists b', r = Done b' /\ contents b' = contents b ++ t /\ s_cur b' = s_cur b + len t /\
                       s_mem b' (s_cur b') = 0 /\ s_cur b' < s_cap b'
  | Bad => r = Abort
  | NoClaim => True
  end.
Proof.
  destruct T as [t| |]; cbn [claim]; auto. intros (b' & E & C & R & F & Z & L). exists b'. repeat split; auto.
  unfold contents. rewrite C, contents_app by assumption. f_equal. apply rd_ext. intros; apply F; lia.
Qed.

(** ** move_suffix *)

Lemma skipn_rd m a n k : (k <= n)%nat -> skipn k (rd m a n) = rd m (a + N.of_nat k) (n - k).
Proof.
  intros. replace n with (k + (n - k))%nat at 1 by lia. rewrite rd_app, skipn_app, rd_length.
  rewrite skipn_all2 by (rewrite rd_length; lia). rewrite Nat.sub_diag. reflexivity.
Qed.

Lemma len_rd m a n : len (rd m a n) = N.of_nat n.
Proof. unfold len. now rewrite rd_length. Qed.

Lemma rd_shift m m' a b n : (forall i, i < N.of_nat n -> m' (a + i) = m (b + i)) -> rd m' a n = rd m b n.
Proof.
  revert a b; induction n; intros a b H; cbn [rd]; auto. f_equal.
  - specialize (H 0). rewrite !N.add_0_r in H. apply H. lia.
  - apply IHn. intros i Hi. specialize (H (1 + i)). rewrite !N.add_assoc in H. apply H. lia.
Qed.

Lemma rd_at m a n k : (k < n)%nat -> nth_error (rd m a n) k = Some (m (a + N.of_nat k)).
Proof.
  revert a k; induction n; intros a k H; [lia|]. destruct k; cbn [rd nth_error].
  - now rewrite N.add_0_r.
  - rewrite IHn by lia. do 2 f_equal. lia.
Qed.

Lemma stl_at l cap m a m' : stl cap m a l = Some m' -> rd m' a (length l) = l ->
  forall k, (k < length l)%nat -> Some (m' (a + N.of_nat k)) = nth_error l k.
Proof. intros _ R k H. rewrite <- R at 1. rewrite rd_at; auto. Qed.

Lemma move_ok b start target :
  target <= start <= s_cur b -> s_cur b <= s_cap b -> 2 * s_cur b < 2 ^ 63 ->
  exists b', move_suffix b start target = Some b' /\
    s_cur b' = s_cur b /\ s_mem b' (s_cur b') = 0 /\ s_cur b' < s_cap b' /\
    contents b' = firstn (N.to_nat target) (contents b) ++ skipn (N.to_nat start) (contents b) ++
                  firstn (N.to_nat (start - target)) (skipn (N.to_nat target) (contents b)).
Proof.
  intros H1 H2 H3. unfold move_suffix. set (size := s_cur b) in *.
  destruct (N.ltb_spec size start); [lia|]. remember (size - start) as n eqn:En.
  unfold put_chars.
  assert (Lr : len (repeat 0 (N.to_nat n)) = n) by (unfold len; rewrite repeat_length; lia).
  destruct (put_str_ok b (repeat 0 (N.to_nat n))) as (b1 & E1 & (C1 & S1 & L1 & _) & Z1).
  { rewrite Lr. fold size. lia. }
  rewrite Lr in S1. fold size in S1. rewrite E1. cbn [bind].
  destruct (N.ltb_spec size target); [lia|].
  (* bytes below size are unchanged by put *)
  assert (U : forall i, i < size -> s_mem b1 i = s_mem b i).
  { intros i Hi. unfold contents in C1. pose proof (f_equal (fun l => nth_error l (N.to_nat i)) C1) as Q. cbv beta in Q.
    rewrite rd_at in Q by lia. rewrite nth_error_app1 in Q by (rewrite rd_length; lia). rewrite rd_at in Q by lia.
    rewrite N2Nat.id, N.add_0_l in Q. now injection Q. }
  set (mid := rd (s_mem b1) target (N.to_nat (size - target))).
  assert (Lm : len mid = size - target) by (unfold mid; rewrite len_rd; lia).
  destruct (stl_ok mid (s_cap b1) (s_mem b1) (target + n)) as (m2 & E2 & R2 & F2); [lia|].
  rewrite E2. cbn [bind].
  assert (Hok : (n =? 0) || (target + n <=? size) = true).
  { apply orb_true_iff. right. apply N.leb_le. lia. }
  rewrite Hok.
  set (suf := rd m2 size (N.to_nat n)).
  assert (Lsuf : len suf = n) by (unfold suf; rewrite len_rd; lia).
  destruct (stl_ok suf (s_cap b1) m2 target) as (m3 & E3 & R3 & F3); [lia|].
  rewrite E3. cbn [bind]. unfold rewind_to. cbn [s_cap s_mem s_cur].
  destruct (N.eqb_spec (s_cap b1) 0); [lia|].
  rewrite st_ok by lia. cbn [bind]. eexists. split; [reflexivity|]. cbn [s_cap s_mem s_cur].
  split; [reflexivity|]. split; [now rewrite N.eqb_refl|]. split; [lia|].
  unfold contents. cbn [s_cap s_mem s_cur]. fold size.
  (* what the pieces are, in terms of the original memory *)
  assert (M2 : forall i, target + n <= i < size + n -> m2 i = s_mem b1 (i - n)).
  { intros i Hi. pose proof (stl_at _ _ _ _ _ E2 R2 (N.to_nat (i - (target + n)))) as Q.
    rewrite N2Nat.id in Q. replace (target + n + (i - (target + n))) with i in Q by lia.
    unfold len in Lm. specialize (Q ltac:(lia)). unfold mid in Q. rewrite rd_at in Q by lia.
    rewrite N2Nat.id in Q. injection Q as Q. rewrite Q. f_equal. lia. }
  assert (M3 : forall i, target <= i < target + n -> m3 i = m2 (size + (i - target))).
  { intros i Hi. pose proof (stl_at _ _ _ _ _ E3 R3 (N.to_nat (i - target))) as Q.
    rewrite N2Nat.id in Q. replace (target + (i - target)) with i in Q by lia.
    unfold len in Lsuf. specialize (Q ltac:(lia)). unfold suf in Q. rewrite rd_at in Q by lia.
    rewrite N2Nat.id in Q. now injection Q. }
  replace (N.to_nat size) with (N.to_nat target + (N.to_nat n + N.to_nat (start - target)))%nat at 1 by lia.
  rewrite !rd_app, N.add_0_l, !N2Nat.id.
  rewrite <- rd_firstn by lia. rewrite !skipn_rd by lia. rewrite <- rd_firstn by lia.
  rewrite !N.add_0_l, !N2Nat.id.
  replace (N.to_nat size - N.to_nat start)%nat with (N.to_nat n) by lia.
  f_equal; [|f_equal]; apply rd_shift; intros i Hi; (match goal with |- context [?x =? size] => destruct (N.eqb_spec x size); [lia|] end).
  - rewrite F3 by lia. rewrite F2 by lia. apply U. lia.
  - rewrite M3 by lia. rewrite M2 by lia. rewrite U by lia. f_equal. lia.
  - rewrite F3 by lia. rewrite M2 by lia. rewrite U by lia. f_equal. lia.
Qed.
