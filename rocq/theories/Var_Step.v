(** The remaining operations, and the step theorem. *)
From Verif Require Import Base FreeSlots_Model FreeSlots_Spec FreeSlots_Proofs Var_Model Var_Spec Var_Inv Var_Count Var_Free Var_New Var_Create Var_Ops Var_Modify Var_Scopes.
Local Open Scope N_scope.

Lemma wf_fields s al own ownse todo hx i : INV s al own ownse todo hx -> al i = true -> wf (V s i).
Proof. intros I Hi. now apply (s_wf _ _ _ _ _ _ _ (I_stat _ _ _ _ _ _ I)). Qed.

(** Only memory regions have pending side effects. *)
Lemma clean_unless_evaluated s al own hx i : INV s al own (fun _ => 0) [] hx -> al i = true ->
  is_evaluated (V s i) = false -> v_se (V s i) = 0.
Proof.
  intros I Hi He. rewrite (c_se _ _ _ _ _ _ (I_cnt _ _ _ _ _ _ I) i Hi). cbn.
  destruct (N.eq_dec (refs_se (V s) al (length (vars s)) i) 0) as [E|E]; [lia|exfalso].
  apply N.neq_0_lt_0, sumn_pos in E as (k & _ & E). destruct (al k) eqn:Ek; [|lia]. revert E. unfold cnt_se. destruct (v_wptr (V s k)) eqn:Ew; [|lia].
  destruct (s_wp _ _ _ _ _ _ _ (I_stat _ _ _ _ _ _ I) k Ek Ew) as (_ & d & Hd & Hd0 & Hde).
  rewrite Hd, !occ_cons, occ_nil. pose proof (al_range _ _ _ _ _ _ _ I Hi).
  destruct (N.eqb_spec i 0); [lia|]. destruct (N.eqb_spec i d) as [->|]; [congruence|lia].
Qed.

Lemma heap_keep s al own ownse todo hx s' : INV s al own ownse todo hx ->
  NoDup (map fst (heap s')) -> (forall p c, In (p, c) (heap s) -> In (p, c) (heap s')) ->
  forall k, al k = true -> is_evaluated (V s k) = true ->
  find_heap (v_lit (V s k)) (heap s') = find_heap (v_lit (V s k)) (heap s).
Proof.
  intros I Nd M k Hk He. destruct (heap_of _ _ _ _ _ _ _ I Hk He) as (c & E & _). rewrite E.
  apply in_find_heap; auto. apply M. now apply find_heap_in in E.
Qed.

(** [k] has the same attributes and the same memory contents in [s'] as in [s]. *)
Definition keeps (s : st) (al' : N -> bool) (s' : st) (k : N) : Prop :=
  al' k = true /\ core (V s' k) = core (V s k) /\
  (is_evaluated (V s k) = true -> find_heap (v_lit (V s k)) (heap s') = find_heap (v_lit (V s k)) (heap s)).

Lemma grows_keeps s al own ownse todo hx s' al' own' ownse' todo' hx' :
  INV s al own ownse todo hx -> INV s' al' own' ownse' todo' hx' -> grows s al s' al' ->
  forall k, al k = true -> keeps s al' s' k.
Proof.
  intros I I' G k Hk. split; [now apply G|]. split; [now apply G|]. intros He.
  eapply heap_keep; eauto; [apply (I_stat _ _ _ _ _ _ I')|apply G].
Qed.

Lemma core_lit v w : core v = core w -> v_lit v = v_lit w.
Proof. intros E. apply core_fields in E. tauto. Qed.

Lemma keeps_trans s s1 s' al1 al' k : keeps s al1 s1 k -> keeps s1 al' s' k -> keeps s al' s' k.
Proof.
  intros (A & B & C) (A' & B' & C'). split; [exact A'|]. split; [congruence|]. intros He.
  assert (He1 : is_evaluated (V s1 k) = true) by (rewrite <- He; now apply eval_core).
  specialize (C He). specialize (C' He1). rewrite (core_lit _ _ B) in C'. congruence.
Qed.

(** ** Reachability *)
Lemma path_snoc s i k j : path s i k -> operand s k j -> path s i j.
Proof.
  induction 1 as [i|i d k Ho Hp IH]; intros H; [eapply path_step; [exact H|constructor]|].
  eapply path_step; [exact Ho|auto].
Qed.
Lemma operand_V s al own ownse todo hx i d : INV s al own ownse todo hx -> al i = true ->
  (operand s i d <-> d <> 0 /\ In d (v_dep (V s i))).
Proof.
  intros I Hi. pose proof (al_range _ _ _ _ _ _ _ I Hi). split.
  - intros (Hd & v & Hv & H'). apply vget_lt in Hv as (_ & ->). auto.
  - intros (Hd & H'). split; auto. exists (V s i). split; auto. now apply vget_V.
Qed.

(** Every variable can be reached from an owned one. *)
Lemma own_path s al own hx : INV s al own (fun _ => 0) [] hx -> forall j, al j = true ->
  exists i, 0 < own i /\ al i = true /\ path s i j.
Proof.
  intros I. pose proof (I_stat _ _ _ _ _ _ I) as S. pose proof (I_cnt _ _ _ _ _ _ I) as C.
  destruct (s_rank _ _ _ _ _ _ _ S) as (rk & R).
  set (B := sumn rk (length (vars s))).
  assert (HB : forall j, al j = true -> rk j <= B).
  { intros j Hj. apply sumn_ge. apply C in Hj. lia. }
  assert (G : forall m j, (N.to_nat (B - rk j) < m)%nat -> al j = true -> exists i, 0 < own i /\ al i = true /\ path s i j).
  { induction m as [|m IH]; intros j Hm Hj; [lia|].
    destruct (N.eq_dec (own j) 0) as [E0|E0]; [|exists j; repeat split; [lia|auto|constructor]].
    assert (P : exists k, al k = true /\ In j (v_dep (V s k))).
    { destruct (c_live _ _ _ _ _ _ C j Hj) as [[]|[H|H]].
      - rewrite (c_rc _ _ _ _ _ _ C j Hj), E0 in H. cbn in H. apply sumn_pos in H as (k & _ & H).
        destruct (al k) eqn:Ek; [|lia]. exists k. split; auto. revert H. unfold cnt.
        destruct (v_wptr (V s k)); [lia|]. apply occ_pos.
      - rewrite (c_se _ _ _ _ _ _ C j Hj) in H. cbn in H. apply sumn_pos in H as (k & _ & H).
        destruct (al k) eqn:Ek; [|lia]. exists k. split; auto. revert H. unfold cnt_se.
        destruct (v_wptr (V s k)); [|lia]. apply occ_pos. }
    destruct P as (k & Hk & Hd). pose proof (al_range _ _ _ _ _ _ _ I Hj) as Hr.
    assert (Hlt : rk j < rk k) by (apply R; auto; lia). pose proof (HB k Hk).
    destruct (IH k ltac:(lia) Hk) as (i & A & D & E). exists i. repeat split; auto.
    eapply path_snoc; [exact E|]. eapply operand_V; eauto. split; [lia|exact Hd]. }
  intros j Hj. eapply G; eauto.
Qed.

Lemma path_al s al own ownse todo hx i j : INV s al own ownse todo hx -> path s i j -> al i = true -> al j = true.
Proof.
  intros I P. induction P as [i|i d k Ho Hp IH]; auto. intros Hi. apply IH.
  eapply operand_V in Ho as (H0 & H); eauto. eapply (s_dep _ _ _ _ _ _ _ (I_stat _ _ _ _ _ _ I)); eauto.
Qed.

(** Whatever was alive with fewer owners stays alive. *)
Lemma shrinks_back s0 al0 own hx0 s1 al1 s' al' hx' :
  INV s0 al0 own (fun _ => 0) [] hx0 -> (forall j, al0 j = true -> core (V s1 j) = core (V s0 j)) ->
  INV s' al' own (fun _ => 0) [] hx' -> shrinks s1 al1 s' al' ->
  forall j, al0 j = true -> al' j = true.
Proof.
  intros I0 E I' Sh j Hj. destruct (own_path _ _ _ _ I0 j Hj) as (i & Ho & Hi & P).
  assert (Hi' : al' i = true).
  { destruct (al' i) eqn:E'; auto. destruct (c_own0 _ _ _ _ _ _ (I_cnt _ _ _ _ _ _ I') i) as (Z & _); auto.
    - pose proof (al_range _ _ _ _ _ _ _ I0 Hi). lia.
    - lia. }
  clear Ho Hj. induction P as [i|i d k Hop Hp IH]; auto.
  eapply operand_V in Hop as (H0 & H); eauto. apply IH.
  - eapply (s_dep _ _ _ _ _ _ _ (I_stat _ _ _ _ _ _ I0)); eauto.
  - eapply (s_dep _ _ _ _ _ _ _ (I_stat _ _ _ _ _ _ I') i); eauto.
    rewrite (proj1 (proj2 (core_fields _ _ (sh_core _ _ _ _ Sh i Hi')))).
    now rewrite (proj1 (proj2 (core_fields _ _ (E i Hi)))).
Qed.

Lemma shrinks_keeps s al own ownse todo hx s' al' own' ownse' todo' hx' :
  INV s al own ownse todo hx -> INV s' al' own' ownse' todo' hx' -> shrinks s al s' al' ->
  forall k, al' k = true -> keeps s al' s' k.
Proof.
  intros I I' Sh k Hk. split; [exact Hk|]. pose proof (sh_core _ _ _ _ Sh k Hk) as E. split; [exact E|]. intros He.
  assert (He' : is_evaluated (V s' k) = true) by (rewrite <- He; now apply eval_core).
  destruct (heap_of _ _ _ _ _ _ _ I' Hk He') as (c & F & _). rewrite (core_lit _ _ E) in F. rewrite F. symmetry.
  apply in_find_heap; [apply (I_stat _ _ _ _ _ _ I)|]. apply Sh. now apply find_heap_in.
Qed.

(** ** Element access *)
Lemma read_ok s al own i off : INV s al own (fun _ => 0) [] [] -> al i = true ->
  exists r, var_read s i off = Some r /\ forall j, gain j r = j.
Proof.
  intros I Hi. unfold var_read. destruct (al_jitc _ _ _ _ _ _ I Hi) as (-> & _). cbn [bind].
  destruct (is_node (V s i) || is_dirty (V s i)) eqn:E0; [now eauto|].
  set (o := if v_size (V s i) =? 1 then 0 else off).
  destruct (N.leb_spec (v_size (V s i)) o) as [|Ho]; [now eauto|].
  destruct (is_literal (V s i) || is_undefined (V s i)) eqn:E1; [now eauto|].
  destruct (is_evaluated (V s i)) eqn:E2.
  - destruct (heap_of _ _ _ _ _ _ _ I Hi E2) as (c & -> & Hc). cbn [bind].
    destruct (nth_error c (N.to_nat o)) eqn:E3; [cbn [bind]; now eauto|].
    apply nth_error_None in E3. lia.
  - exfalso. apply orb_false_iff in E1 as (E1 & E1'). apply orb_false_iff in E0 as (E0 & _).
    unfold is_literal, is_undefined, is_evaluated, is_node, K_Literal, K_Undefined, K_Evaluated in *.
    apply N.eqb_neq in E1, E1', E2. apply N.ltb_ge in E0.
    pose proof (wf_fields _ _ _ _ _ _ _ I Hi) as W. unfold wf in W. lia.
Qed.

Lemma find_heap_poke p n x : forall h h' c, poke p n x h = Some h' -> find_heap p h = Some c ->
  find_heap p h' = Some (set_nth n x c) /\ (forall q, q <> p -> find_heap q h' = find_heap q h).
Proof.
  induction h as [|(q, d) r IH]; intros h' c E F; [easy|]. cbn [poke find_heap] in *.
  destruct (N.eqb_spec q p) as [->|Hne].
  - unfold upd in E. injection F as ->. destruct (Nat.ltb_spec n (length c)); [|easy]. cbn [bind] in E.
    injection E as <-. cbn [find_heap]. rewrite N.eqb_refl. split; [reflexivity|].
    intros q Hq. destruct (N.eqb_spec p q); congruence.
  - destruct (poke p n x r) as [r'|] eqn:Er; [|easy]. cbn [bind] in E. injection E as <-.
    destruct (IH r' c eq_refl F) as (A & B). cbn [find_heap]. destruct (N.eqb_spec q p); [congruence|].
    split; [exact A|]. intros q' Hq'. destruct (N.eqb_spec q q'); auto.
Qed.

Definition finish (s : st) (r off x : N) : option (st * out) :=
  let? v := jitc_var s r in
  if v_size v <=? off then let? s := dec_ref s r in Some (s, ORaise)
  else let? h := poke (v_lit v) (N.to_nat off) (trunc (v_type v) x) (heap s) in
       Some (with_heap s h, OIndex r).

Lemma finish_ok s h al r off x c :
  INV s al (plus1 (occ h) r) (fun _ => 0) [] [] -> al r = true -> r <> 0 -> is_evaluated (V s r) = true ->
  find_heap (v_lit (V s r)) (heap s) = Some c -> v_size (V s r) <= N.of_nat (length c) ->
  exists s' o al', finish s r off x = Some (s', o) /\ INVh s' (gain h o) al' /\
    (v_size (V s r) <= off /\ o = ORaise /\ shrinks s al s' al' \/
     off < v_size (V s r) /\ o = OIndex r /\ al' = al /\
     exists h', s' = with_heap s h' /\
       find_heap (v_lit (V s r)) h' = Some (set_nth (N.to_nat off) (trunc (v_type (V s r)) x) c) /\
       forall q, q <> v_lit (V s r) -> find_heap q h' = find_heap q (heap s)).
Proof.
  intros I Hr H0 He Hf Hlen. unfold finish. destruct (al_jitc _ _ _ _ _ _ I Hr) as (-> & _). cbn [bind].
  destruct (N.leb_spec (v_size (V s r)) off) as [Ho|Ho].
  - destruct (dec_ref_ok _ _ _ _ _ _ I) as (s' & al' & E & I' & Sh). rewrite E. cbn [bind].
    exists s', ORaise, al'. split; [reflexivity|]. split; [exact I'|]. auto.
  - pose proof (find_heap_in _ _ _ Hf) as Hin.
    destruct (poke_spec (v_lit (V s r)) (N.to_nat off) (trunc (v_type (V s r)) x) (heap s) c) as (h' & E & _); auto.
    { apply (I_stat _ _ _ _ _ _ I). } { lia. }
    rewrite E. cbn [bind]. exists (with_heap s h'), (OIndex r), al. split; [reflexivity|]. split.
    + apply gain_INV; auto. eapply poke_INV; eauto. lia.
    + right. split; [exact Ho|]. split; [reflexivity|]. split; [reflexivity|]. exists h'. split; [reflexivity|].
      eapply find_heap_poke; eauto.
Qed.

Lemma var_write_unfold s e i off x p1 p2 junk :
  var_write s e i off x p1 p2 junk =
  let? y := var_data s e i p1 junk in
  match snd y with
  | None => Some (fst y, ORaise)
  | Some r =>
      let? v := jitc_var (fst y) r in
      let? z := (if 2 <? v_rc v then
                   let? z := mem_copy (fst y) e v p2 in
                   let? s := dec_ref (fst z) r in Some (s, snd z)
                 else Some (fst y, r)) in
      finish (fst z) (snd z) off x
  end.
Proof.
  unfold var_write, finish. destruct (var_data s e i p1 junk) as [(s1, [r|])|]; cbn [bind fst snd]; auto.
  destruct (jitc_var s1 r) as [v|]; cbn [bind]; auto.
  destruct (if 2 <? v_rc v then _ else _) as [(s2, r2)|]; cbn [bind fst snd]; reflexivity.
Qed.

(** Contents of a variable, if it has any; [junk] for undefined memory. *)
Definition contents (s : st) (i : N) (junk : list N) : option (list N) :=
  let v := V s i in
  if is_literal v then Some (repeat (trunc (v_type v) (v_lit v)) (N.to_nat (v_size v)))
  else if is_undefined v then Some (firstn (N.to_nat (v_size v)) junk)
  else if is_evaluated v then
    match find_heap (v_lit v) (heap s) with Some c => Some (firstn (N.to_nat (v_size v)) c) | None => None end
  else None.

(** The memory region [r] of [s'] has the contents [c]. *)
Definition region (s' : st) (r type size : N) (c : list N) : Prop :=
  is_evaluated (V s' r) = true /\ v_type (V s' r) = type /\ v_size (V s' r) = size /\
  exists c', find_heap (v_lit (V s' r)) (heap s') = Some c' /\ firstn (N.to_nat size) c' = c.

Lemma firstn_set_nth {A} (n k : nat) (x : A) l : (k < n)%nat -> firstn n (set_nth k x l) = set_nth k x (firstn n l).
Proof.
  revert n k. induction l as [|a l IH]; intros n k H; destruct n, k; cbn; try lia; auto.
  f_equal. apply IH. lia.
Qed.

Lemma write_ok s h al e i off x p1 p2 junk :
  INVh s h al -> room s h -> thread_ok s e -> In i h -> al i = true -> fresh s p1 -> fresh s p2 -> p1 <> p2 ->
  0 < v_size (V s i) <= N.of_nat (length junk) ->
  exists s' r al', var_write s e i off x p1 p2 junk = Some (s', r) /\ INVh s' (gain h r) al' /\
    trans s al s' al' (OWrite e i off x p1 p2 junk) /\
    (r = ORaise /\ (forall k, al k = true -> keeps s al' s' k) /\
       (v_size (V s i) <= off \/ contents s i junk = None \/ is_dirty (V s i) = true) \/
     exists k c, r = OIndex k /\ off < v_size (V s i) /\ contents s i junk = Some c /\ al' k = true /\
       region s' k (v_type (V s i)) (v_size (V s i)) (set_nth (N.to_nat off) (trunc (v_type (V s i)) x) c) /\
       (k <> i /\ al k = false /\ (forall j, al j = true -> keeps s al' s' j) \/
        k = i /\ is_evaluated (V s i) = true /\ v_rc (V s i) <= 1 /\ is_dirty (V s i) = false /\ al' = al /\
          (forall j, core (V s' j) = core (V s j)) /\
          (forall q, q <> v_lit (V s i) -> find_heap q (heap s') = find_heap q (heap s)))).
Proof.
  intros I R T Hin Hi F1 F2 Hp Hsz. pose proof (fun j => room_bound s h j R) as RB'.
  pose proof (wf_fields _ _ _ _ _ _ _ I Hi) as W. assert (W' := W). unfold wf in W'.
  pose proof (al_range _ _ _ _ _ _ _ I Hi) as Hr. assert (Hi0 : i <> 0) by lia.
  destruct (al_jitc _ _ _ _ _ _ I Hi) as (J & _).
  (* a fresh region [r] with contents [c] in a state [s1] that has grown from [s] *)
  assert (FR : forall s1 al1 r c p,
    INV s1 al1 (plus1 (occ h) r) (fun _ => 0) [] [] -> grows s al s1 al1 -> al1 r = true -> al r = false -> r <> 0 ->
    is_evaluated (V s1 r) = true -> v_type (V s1 r) = v_type (V s i) -> v_size (V s1 r) = v_size (V s i) ->
    v_lit (V s1 r) = p -> fresh s p ->
    find_heap p (heap s1) = Some c -> v_size (V s i) <= N.of_nat (length c) ->
    contents s i junk = Some (firstn (N.to_nat (v_size (V s i))) c) ->
    exists s' o al', finish s1 r off x = Some (s', o) /\ INVh s' (gain h o) al' /\
      trans s al s' al' (OWrite e i off x p1 p2 junk) /\
      (o = ORaise /\ (forall k, al k = true -> keeps s al' s' k) /\ v_size (V s i) <= off \/
       exists c, o = OIndex r /\ off < v_size (V s i) /\ contents s i junk = Some c /\ al' r = true /\
        region s' r (v_type (V s i)) (v_size (V s i)) (set_nth (N.to_nat off) (trunc (v_type (V s i)) x) c) /\
        r <> i /\ al r = false /\ (forall j, al j = true -> keeps s al' s' j))).
  { intros s1 al1 r c p I1 G1 A1 Ar Hr0 Ev1 Et1 Es1 El1 Fp Fh Hc Ec.
    destruct (finish_ok s1 h al1 r off x c I1 A1 Hr0 Ev1) as (s' & o & al' & E & I' & Cs).
    { now rewrite El1. } { now rewrite Es1. }
    rewrite Es1, El1, Et1 in Cs.
    exists s', o, al'. split; [exact E|]. split; [exact I'|].
    assert (K1 : forall k, al k = true -> keeps s al1 s1 k) by (eapply grows_keeps; eauto).
    destruct Cs as [(Ho & -> & Sh)|(Ho & -> & -> & h' & -> & Hf & Hq)].
    + split. { eapply trans_grow_shrink; [exact G1| |exact Sh]. cbn. auto. }
      left. split; [reflexivity|]. split; [|auto]. intros k Hk. specialize (K1 k Hk).
      eapply keeps_trans; [exact K1|]. eapply shrinks_keeps; eauto.
      apply (shrinks_back s al (occ h) [] s1 al1 s' al' []) with (j := k); auto. intros; now apply G1.
    + split.
      { pose proof (trans_grow _ _ _ _ (OWrite e i off x p1 p2 junk) G1) as Tg.
        constructor; [apply (t_len _ _ _ _ _ Tg)|apply (t_dead _ _ _ _ _ Tg)|apply (t_counter _ _ _ _ _ Tg)|apply (t_lvn _ _ _ _ _ Tg)|apply (t_core _ _ _ _ _ Tg)]. }
      right. exists (firstn (N.to_nat (v_size (V s i))) c).
      split; [reflexivity|]. split; [exact Ho|]. split; [exact Ec|]. split; [exact A1|].
      change (V (with_heap s1 h')) with (V s1). split.
      { unfold region. change (V (with_heap s1 h')) with (V s1). split; [exact Ev1|]. split; [exact Et1|]. split; [exact Es1|]. rewrite El1. cbn [heap with_heap].
        eexists. split; [exact Hf|]. rewrite firstn_set_nth by lia. reflexivity. }
      split; [congruence|]. split; [exact Ar|]. intros j Hj. destruct (K1 j Hj) as (Ka & Kb & Kc).
      split; [exact Ka|]. split; [exact Kb|]. intros He. cbn [heap with_heap]. rewrite Hq; [now apply Kc|].
      destruct (heap_of _ _ _ _ _ _ _ I Hj He) as (cj & Fj & _). apply find_heap_in in Fj.
      intros Eq. destruct Fp as (_ & _ & Fp). apply Fp. rewrite <- Eq. now apply (in_map fst) in Fj. }
  rewrite var_write_unfold. unfold var_data. rewrite J. cbn [bind].
  destruct (is_literal (V s i) || is_undefined (V s i)) eqn:Elu.
  - unfold eval_force.
    set (c := if is_literal (V s i) then repeat (trunc (v_type (V s i)) (v_lit (V s i))) (N.to_nat (v_size (V s i))) else junk).
    assert (Hc : v_size (V s i) <= N.of_nat (length c)).
    { unfold c. destruct (is_literal (V s i)); [rewrite repeat_length|]; lia. }
    destruct (map_ok s e (v_backend (V s i)) (v_type (V s i)) p1 (v_size (V s i)) c al (occ h))
      as (s0 & s1 & r & E0 & E1 & I1 & G1 & Ar & Hr0 & Sz1 & Hh1 & (sc & V1) & Vj); auto; try lia.
    { intros j. specialize (RB' j). lia. }
    rewrite E0. cbn [bind]. rewrite E1. cbn [bind fst snd].
    assert (A1 : fupd al r true r = true) by apply fupd_eq.
    destruct (al_jitc _ _ _ _ _ _ I1 A1) as (-> & _). cbn [bind]. rewrite V1.
    cbn [v_rc]. change (2 <? 1) with false. cbn [bind fst snd].
    destruct (FR s1 (fupd al r true) r c p1) as (s' & o & al' & E & I' & Tr & Cs); auto; try (rewrite V1; reflexivity).
    { rewrite Hh1. cbn. now rewrite N.eqb_refl. }
    { unfold contents, c. destruct (is_literal (V s i)) eqn:El.
      - rewrite firstn_all2; [reflexivity|]. rewrite repeat_length. lia.
      - cbn in Elu. now rewrite Elu. }
    exists s', o, al'. split; [exact E|]. split; [exact I'|]. split; [exact Tr|].
    destruct Cs as [(A & B & C)|(c' & A & B & C & D & F & G & H & K)]; [left; auto|right].
    exists r, c'. repeat (split; [assumption|]). left. auto.
  - apply orb_false_iff in Elu as (El & Eu).
    destruct (is_evaluated (V s i)) eqn:Ee.
    2: { cbn [bind fst snd]. exists s, ORaise, al. split; [reflexivity|]. split; [exact I|]. split; [apply trans_refl|].
         left. split; [reflexivity|]. split; [intros k Hk; split; auto|]. right. left.
         unfold contents. now rewrite El, Eu, Ee. }
    destruct (is_dirty (V s i)) eqn:Ed.
    { cbn [bind fst snd]. exists s, ORaise, al. split; [reflexivity|]. split; [exact I|]. split; [apply trans_refl|].
      left. split; [reflexivity|]. split; [intros k Hk; split; auto|]. auto. }
    destruct (inc_ref_ok s al (occ h) (fun _ => 0) [] i I Hi) as (s1 & E1 & I1 & CO & Vi & Vj).
    { specialize (RB' i). lia. }
    rewrite E1. cbn [bind fst snd]. destruct (al_jitc _ _ _ _ _ _ I1 Hi) as (-> & _). cbn [bind].
    replace (v_rc (V s1 i)) with (v_rc (V s i) + 1) by (now rewrite Vi).
    destruct (heap_of _ _ _ _ _ _ _ I Hi Ee) as (c & Fc & Hc).
    assert (Ec : contents s i junk = Some (firstn (N.to_nat (v_size (V s i))) c)).
    { unfold contents. now rewrite El, Eu, Ee, Fc. }
    destruct (N.ltb_spec 2 (v_rc (V s i) + 1)) as [Hrc|Hrc].
    + unfold mem_copy. replace (v_size (V s1 i)) with (v_size (V s i)) by (now rewrite Vi).
      destruct (N.eqb_spec (v_size (V s i)) 0); [lia|]. replace (v_lit (V s1 i)) with (v_lit (V s i)) by (now rewrite Vi). rewrite (co_heap _ _ CO), Fc. cbn [bind].
      rewrite Vi. cbn [v_lit v_size v_backend v_type set_rc].
      destruct (map_ok s1 e (v_backend (V s i)) (v_type (V s i)) p2 (v_size (V s i))
                  (firstn (N.to_nat (v_size (V s i))) c) al (plus1 (occ h) i))
        as (s2' & s2 & r & E2' & E2 & I2 & G2 & Ar & Hr0 & Sz2 & Hh2 & (sc & V2) & Vj2); auto; try lia.
      { unfold thread_ok in *. now rewrite (co_ts _ _ CO). }
      { unfold fresh in *. now rewrite (co_heap _ _ CO). }
      { rewrite firstn_length. lia. }
      { intros j. specialize (RB' j). unfold plus1, sz. rewrite (co_len _ _ CO). unfold sz in RB'. destruct (j =? i); lia. }
      rewrite E2'. cbn [bind]. rewrite E2. cbn [bind fst snd].
      assert (Hir : i <> r) by congruence.
      assert (I2' : INV s2 (fupd al r true) (plus1 (plus1 (occ h) r) i) (fun _ => 0) [] []).
      { eapply INV_own; [| |exact I2]; auto. intros j _. unfold plus1. lia. }
      destruct (dec_ref_keep _ _ _ _ _ _ I2' Hi0) as (s3 & E3 & I3 & CO3 & Vi3 & Vj3).
      { apply occ_pos in Hin. unfold plus1. lia. }
      rewrite E3. cbn [bind fst snd].
      assert (G3 : grows s al s3 (fupd al r true)).
      { eapply grows_trans; [apply grows_counts; exact CO|]. eapply grows_trans; [exact G2|]. now apply grows_counts. }
      assert (Vr3 : V s3 r = V s2 r) by (apply Vj3; auto).
      destruct (FR s3 (fupd al r true) r (firstn (N.to_nat (v_size (V s i))) c) p2) as (s' & o & al' & E & I' & Tr & Cs); auto;
        try (rewrite Vr3, V2; reflexivity).
      { apply fupd_eq. }
      { rewrite (co_heap _ _ CO3), Hh2. cbn. now rewrite N.eqb_refl. }
      { rewrite firstn_length. lia. }
      { rewrite firstn_firstn, Nat.min_id. exact Ec. }
      exists s', o, al'. split; [exact E|]. split; [exact I'|]. split; [exact Tr|].
      destruct Cs as [(A & B & C)|(c' & A & B & C & D & F & G & H & K)]; [left; auto|right].
      exists r, c'. repeat (split; [assumption|]). left. auto.
    + cbn [bind fst snd].
      destruct (finish_ok s1 h al i off x c I1 Hi Hi0) as (s' & o & al' & E & I' & Cs).
      { now rewrite Vi. } { rewrite Vi. cbn. now rewrite (co_heap _ _ CO). } { now rewrite Vi. }
      rewrite Vi in Cs. cbn [v_size v_lit v_type set_rc] in Cs. rewrite (co_heap _ _ CO) in Cs.
      exists s', o, al'. split; [exact E|]. split; [exact I'|].
      assert (G1 : grows s al s1 al) by (now apply grows_counts).
      destruct Cs as [(Ho & -> & Sh)|(Ho & -> & -> & h' & -> & Hf & Hq)].
      * assert (B : forall j, al j = true -> al' j = true).
        { apply (shrinks_back s al (occ h) [] s1 al s' al' []); auto. intros; apply CO. }
        split. { eapply trans_grow_shrink; [exact G1| |exact Sh]. auto. }
        left. split; [reflexivity|]. split; [|auto]. intros k Hk.
        eapply keeps_trans; [eapply (grows_keeps s al); [exact I|exact I1|exact G1|exact Hk]|].
        eapply shrinks_keeps; eauto.
      * split.
        { pose proof (trans_grow _ _ _ _ (OWrite e i off x p1 p2 junk) G1) as Tg.
          constructor; [apply (t_len _ _ _ _ _ Tg)|apply (t_dead _ _ _ _ _ Tg)|apply (t_counter _ _ _ _ _ Tg)|apply (t_lvn _ _ _ _ _ Tg)|apply (t_core _ _ _ _ _ Tg)]. }
        right. exists i, (firstn (N.to_nat (v_size (V s i))) c).
        split; [reflexivity|]. split; [exact Ho|]. split; [exact Ec|]. split; [exact Hi|].
        change (V (with_heap s1 h')) with (V s1). split.
        { unfold region. change (V (with_heap s1 h')) with (V s1). rewrite Vi.
          split; [exact Ee|]. split; [reflexivity|]. split; [reflexivity|]. cbn [heap with_heap v_lit set_rc].
          eexists. split; [exact Hf|]. rewrite firstn_set_nth by lia. reflexivity. }
        right. split; [reflexivity|]. split; [reflexivity|]. split; [lia|]. split; [reflexivity|].
        split; [reflexivity|]. split; [apply CO|exact Hq].
Qed.

(** ** Copies *)
Lemma copy_ok s h al e i p :
  INVh s h al -> room s h -> thread_ok s e -> al i = true -> fresh s p ->
  exists s' r al', var_copy s e i p = Some (s', r) /\ INVh s' (gain h r) al' /\ grows s al s' al' /\
    (r = ORaise \/ r = OIndex 0 \/ exists k, r = OIndex k /\ al k = false /\ al' k = true).
Proof.
  intros I R T Hi F. pose proof (fun j => room_bound s h j R) as RB'.
  pose proof (wf_fields _ _ _ _ _ _ _ I Hi) as W. unfold wf in W.
  pose proof (al_range _ _ _ _ _ _ _ I Hi) as Hr.
  destruct (al_jitc _ _ _ _ _ _ I Hi) as (J & _).
  unfold var_copy. destruct (N.eqb_spec i 0); [lia|]. rewrite J. cbn [bind].
  destruct (is_dirty (V s i)) eqn:Ed.
  { exists s, ORaise, al. split; [reflexivity|]. split; [exact I|]. split; [apply grows_refl|]. auto. }
  destruct (is_evaluated (V s i)) eqn:Ee.
  - unfold mem_copy. destruct (N.eqb_spec (v_size (V s i)) 0) as [Hz|Hz].
    { cbn [bind fst snd]. exists s, (OIndex 0), al. split; [reflexivity|]. split; [exact I|]. split; [apply grows_refl|]. auto. }
    destruct (heap_of _ _ _ _ _ _ _ I Hi Ee) as (c & Fc & Hc).
    rewrite Fc. cbn [bind].
    destruct (map_ok s e (v_backend (V s i)) (v_type (V s i)) p (v_size (V s i))
                  (firstn (N.to_nat (v_size (V s i))) c) al (occ h))
        as (s2' & s2 & r & E2' & E2 & I2 & G2 & Ar & Hr0 & Sz2 & Hh2 & (sc & V2) & Vj2); auto; try lia.
    { rewrite firstn_length. lia. } { intros j. specialize (RB' j). lia. }
    rewrite E2'. cbn [bind]. rewrite E2. cbn [bind fst snd].
    exists s2, (OIndex r), (fupd al r true). split; [reflexivity|]. split; [now apply gain_INV|]. split; [exact G2|].
    right. right. exists r. rewrite fupd_eq. auto.
  - destruct (is_literal (V s i) || is_undefined (V s i)) eqn:Elu.
    + destruct (fresh_node_ok s e 0 (v_lit (V s i)) (v_size (V s i)) (v_kind (V s i)) (v_backend (V s i)) (v_type (V s i)) false 0 al (occ h) [])
        as (s' & r & al' & E & I' & G & A & Hr0 & Ar & _); auto; try lia.
      { eapply INV_own; [| |exact I]; auto. intros j Hj. unfold plus1. destruct (N.eqb_spec j 0); [congruence|lia]. }
      { unfold is_evaluated in Ee. now apply N.eqb_neq in Ee. } { intros j. specialize (RB' j). lia. }
      rewrite E. cbn [bind fst snd]. exists s', (OIndex r), al'. split; [reflexivity|].
      split; [now apply gain_INV|]. split; [exact G|]. right. right. eauto.
    + destruct (inc_ref_ok s al (occ h) (fun _ => 0) [] i I Hi) as (s1 & E1 & I1 & CO & Vi & Vj).
      { specialize (RB' i). lia. }
      rewrite E1. cbn [bind].
      destruct (fresh_node_ok s1 e i 0 (v_size (V s i)) K_Bitcast (v_backend (V s i)) (v_type (V s i)) false 0 al (occ h) [])
        as (s' & r & al' & E & I' & G & A & Hr0 & Ar & _); auto; try (unfold K_Bitcast, K_Evaluated; lia).
      { unfold thread_ok in *. now rewrite (co_ts _ _ CO). }
      { intros j. specialize (RB' j). unfold sz in *. rewrite (co_len _ _ CO). lia. }
      rewrite E. cbn [bind fst snd]. exists s', (OIndex r), al'. split; [reflexivity|].
      split; [now apply gain_INV|]. split; [eapply grows_trans; [apply grows_counts; exact CO|exact G]|]. right. right. eauto.
Qed.

(** ** Pointers *)
Lemma pointer_ok s h al e d w wr dis :
  INVh s h al -> room s h -> thread_ok s e -> al d = true -> is_evaluated (V s d) = true -> v_se (V s d) < 2 ^ 16 - 1 ->
  exists s' i al', var_pointer s e (v_backend (V s d)) (v_lit (V s d)) d w wr dis = Some (s', i) /\
    INVh s' (gain h (OIndex i)) al' /\ grows s al s' al'.
Proof.
  intros I R T Hd He Hse. pose proof (fun j => room_bound s h j R) as RB'.
  pose proof (wf_fields _ _ _ _ _ _ _ I Hd) as W. unfold wf in W.
  pose proof (al_range _ _ _ _ _ _ _ I Hd) as Hr.
  unfold var_pointer.
  set (v := mkVar 0 0 0 [0; 0; 0; d] (v_lit (V s d)) 1 0 K_Literal (v_backend (V s d)) T_Pointer w (w || wr) false false false 0).
  assert (P : exists s1, (if w then inc_ref_se s d else inc_ref s d) = Some s1 /\ counts_only s s1 /\
     INV s1 al (fun j => occ h j + cnt v j) (fun j => 0 + cnt_se v j) [] []).
  { destruct w.
    - destruct (inc_ref_se_ok s al (occ h) (fun _ => 0) [] d I Hd) as (s1 & E1 & I1 & CO & _); [lia|].
      exists s1. split; [exact E1|]. split; [exact CO|]. eapply INV_own; [| |exact I1]; intros j Hj;
      unfold cnt, cnt_se, plus1; cbn [v v_wptr v_dep]; rewrite ?occ_cons, ?occ_nil; destruct (N.eqb_spec j 0); lia.
    - destruct (inc_ref_ok s al (occ h) (fun _ => 0) [] d I Hd) as (s1 & E1 & I1 & CO & _); [specialize (RB' d); lia|].
      exists s1. split; [exact E1|]. split; [exact CO|]. eapply INV_own; [| |exact I1]; intros j Hj;
      unfold cnt, cnt_se, plus1; cbn [v v_wptr v_dep]; rewrite ?occ_cons, ?occ_nil; destruct (N.eqb_spec j 0); lia. }
  destruct P as (s1 & E1 & CO & I1). rewrite E1. cbn [bind]. rewrite (co_ts _ _ CO).
  destruct (thread_scope _ _ _ _ _ _ _ I T) as (sc & Es & Hsc). rewrite Es. cbn [bind]. clear sc Es Hsc.
  destruct (var_new_ok s1 e 1 v dis al (occ h) (fun _ => 0) [] [])
    as (s' & i & al' & E & I' & G & A & B & _ & F & D & M).
  - exact I1.
  - constructor; try reflexivity.
    + unfold wf, v, K_Literal, T_Pointer. cbn. repeat split; auto; lia.
    + cbn. intros x [<-|[<-|[<-|[<-|[]]]]]; congruence.
    + intros _. split; [reflexivity|]. exists d. split; [reflexivity|]. split; [lia|].
      rewrite <- He. apply eval_core, CO.
    + rewrite (co_sctr _ _ CO). apply (s_ctr _ _ _ _ _ _ _ (I_stat _ _ _ _ _ _ I)).
  - reflexivity.
  - right. auto.
  - intros j. specialize (RB' j). unfold sz in *. rewrite (co_len _ _ CO). lia.
  - exists s', i, al'. split; [exact E|]. split; [now apply gain_INV|].
    eapply grows_trans; [apply grows_counts; exact CO|exact G].
Qed.

(** ** Shrinking *)
Lemma shrink_ok s h al e i n p junk :
  INVh s h al -> room s h -> thread_ok s e -> In i h -> al i = true -> n < 2 ^ 32 -> is_undefined (V s i) = false ->
  exists s' r al', var_shrink s e i n p junk = Some (s', r) /\ INVh s' (gain h r) al' /\ grows s al s' al' /\
    (n <> 0 -> n < v_size (V s i) -> is_evaluated (V s i) = true -> is_dirty (V s i) = false ->
     exists k, r = OIndex k /\ al k = false /\ al' k = true /\ is_evaluated (V s' k) = true /\ v_retain (V s' k) = true /\
       v_size (V s' k) = n /\ v_lit (V s' k) = v_lit (V s i) /\ v_type (V s' k) = v_type (V s i) /\ heap s' = heap s).
Proof.
  intros I R T Hin Hi Hn Hu. pose proof (fun j => room_bound s h j R) as RB'.
  pose proof (wf_fields _ _ _ _ _ _ _ I Hi) as W. unfold wf in W.
  pose proof (al_range _ _ _ _ _ _ _ I Hi) as Hr. assert (Hi0 : i <> 0) by lia.
  destruct (al_jitc _ _ _ _ _ _ I Hi) as (J & _).
  unfold var_shrink. destruct (N.eqb_spec i 0); [lia|]. cbn [orb].
  destruct (N.eqb_spec n 0) as [Hn0|Hn0].
  { exists s, (OIndex 0), al. split; [reflexivity|]. split; [exact I|]. split; [apply grows_refl|]. congruence. }
  rewrite J. cbn [bind].
  destruct (N.eqb_spec (v_size (V s i)) n) as [He|He].
  { destruct (inc_ref_ok s al (occ h) (fun _ => 0) [] i I Hi) as (s1 & E1 & I1 & CO & Vi & Vj); [specialize (RB' i); lia|].
    rewrite E1. cbn [bind]. exists s1, (OIndex i), al. split; [reflexivity|]. split; [now apply gain_INV|].
    split; [now apply grows_counts|]. lia. }
  destruct (N.ltb_spec (v_size (V s i)) n) as [Hlt|Hlt].
  { exists s, ORaise, al. split; [reflexivity|]. split; [exact I|]. split; [apply grows_refl|]. lia. }
  destruct (is_literal (V s i)) eqn:El.
  { destruct (literal_ok s e (v_backend (V s i)) (v_type (V s i)) (v_lit (V s i)) n al (occ h) []) as
      (s' & r & al' & sc & E & I' & G & A & Hr0 & _); auto; try lia.
    { intros j. specialize (RB' j). lia. }
    rewrite E. cbn [bind fst snd]. exists s', (OIndex r), al'. split; [reflexivity|]. split; [now apply gain_INV|].
    split; [exact G|]. unfold is_literal, is_evaluated, K_Literal, K_Evaluated in *.
    apply N.eqb_eq in El. rewrite El. discriminate. }
  unfold var_data. rewrite J. cbn [bind]. rewrite El, Hu. cbn [orb].
  destruct (is_evaluated (V s i)) eqn:Ee.
  2: { cbn [bind]. exists s, ORaise, al. split; [reflexivity|]. split; [exact I|]. split; [apply grows_refl|]. discriminate. }
  destruct (is_dirty (V s i)) eqn:Ed.
  { cbn [bind]. exists s, ORaise, al. split; [reflexivity|]. split; [exact I|]. split; [apply grows_refl|]. discriminate. }
  destruct (inc_ref_ok s al (occ h) (fun _ => 0) [] i I Hi) as (s1 & E1 & I1 & CO & Vi & Vj); [specialize (RB' i); lia|].
  rewrite E1. cbn [bind]. destruct (al_jitc _ _ _ _ _ _ I1 Hi) as (J1 & _). rewrite J1. cbn [bind].
  unfold mem_map. destruct (N.eqb_spec n 0); [lia|]. unfold var_new. rewrite (co_ts _ _ CO).
  destruct (thread_scope _ _ _ _ _ _ _ I T) as (sc & Es & Hsc). rewrite Es. cbn [bind].
  replace (v_lit (V s1 i)) with (v_lit (V s i)) by (now rewrite Vi).
  set (v := mkVar 0 0 0 [0; 0; 0; 0] (v_lit (V s i)) n 0 K_Evaluated (v_backend (V s i)) (v_type (V s i))
             false false (negb false) false false 0).
  set (v3 := set_dep v [0; 0; 0; i]).
  assert (SZ1 : sz s1 = sz s) by (unfold sz; now rewrite (co_len _ _ CO)).
  destruct (var_new_at_ok s1 e sc v true al (plus1 (occ h) i) (fun _ => 0) []) as (s2 & r & E2 & [CR|(_ & ? & _)] & _);
    [| | | |discriminate].
  { eapply INV_own; [| |exact I1]; intros j Hj; unfold cnt, cnt_se; cbn [v v_wptr v_dep]; rewrite ?occ_cons, ?occ_nil;
      destruct (N.eqb_spec j 0); (congruence || lia). }
  { constructor; try reflexivity.
    - unfold wf, v, K_Evaluated; cbn; repeat split; auto; lia.
    - cbn. intros x [<-|[<-|[<-|[<-|[]]]]]; congruence.
    - discriminate.
    - now rewrite (co_sctr _ _ CO). }
  { intros j. specialize (RB' j). unfold plus1. destruct (j =? i); lia. }
  rewrite E2. cbn [bind].
  pose proof (cr_i _ _ _ _ _ _ CR) as Hrr. pose proof (cr_al _ _ _ _ _ _ CR) as Ar.
  assert (Hir : i <> r) by congruence.
  assert (SZ2 : sz s2 <= sz s + 1) by (destruct (cr_sz _ _ _ _ _ _ CR); lia).
  pose proof (cr_V _ _ _ _ _ _ CR) as Vr.
  assert (J2 : jitc_var s2 r = Some (V s2 r)).
  { unfold jitc_var. destruct (N.eqb_spec r 0); [lia|]. rewrite vget_V by lia. cbn [bind]. rewrite Vr. reflexivity. }
  rewrite J2. cbn [bind].
  destruct (vset_spec s2 r (set_dep (V s2 r) [0; 0; 0; i])) as (s3 & E3 & EV3 & EL3 & EU3 & Em3 & Et3 & Ec3 & Eh3); [lia|].
  rewrite E3. cbn [bind].
  assert (Vr3 : V s3 r = set_dep (V s2 r) [0; 0; 0; i]) by (rewrite EV3; apply fupd_eq).
  assert (Vj3 : forall j, j <> r -> V s3 j = V s2 j) by (intros; rewrite EV3; now apply fupd_ne).
  (* the view owns the reference that jitc_var_data() returned *)
  assert (CR3 : created s1 al v3 sc s3 r).
  { constructor; try (rewrite ?Et3, ?Ec3, ?Eh3, ?Em3; apply CR).
    - unfold sz in *. rewrite EL3. exact Hrr.
    - rewrite Vr3, Vr. reflexivity.
    - intros j Hj. rewrite Vj3 by auto. now apply CR.
    - destruct (cr_sz _ _ _ _ _ _ CR) as [Q|Q]; unfold sz in *; rewrite EL3; auto.
    - destruct (cr_lvn _ _ _ _ _ _ CR) as [Q|(_ & Q & _)]; [rewrite Em3; auto|discriminate].
    - destruct (cr_slots _ _ _ _ _ _ CR) as (Fr & HF & HFin). exists Fr. rewrite EU3. split; [exact HF|].
      unfold sz. rewrite EL3. exact HFin. }
  assert (I1' : INV s1 al (fun j => occ h j + cnt v3 j) (fun j => 0 + cnt_se v3 j) [] []).
  { eapply INV_own; [| |exact I1]; intros j Hj; unfold cnt, cnt_se, plus1; cbn [v v3 set_dep v_wptr v_dep];
      rewrite ?occ_cons, ?occ_nil; destruct (N.eqb_spec j 0); (congruence || lia). }
  assert (I3 : INV s3 (fupd al r true) (plus1 (occ h) r) (fun _ => 0) [] []).
  { pose proof (I_stat _ _ _ _ _ _ I1) as S1.
    constructor.
    - eapply (created_cnts s1 al v3 sc s3 r (occ h) (fun _ => 0) [] (V s3 r) s3 I1' CR3); auto;
        try (rewrite Vr3, Vr; reflexivity).
      cbn. intros x [<-|[<-|[<-|[<-|[]]]]]; congruence.
    - rewrite (cr_heap _ _ _ _ _ _ CR3), (cr_ts _ _ _ _ _ _ CR3), (cr_sctr _ _ _ _ _ _ CR3).
      eapply (stat_add (V s1) (V s3)); eauto; try (apply CR3; fail); rewrite (cr_V _ _ _ _ _ _ CR3);
      cbn [set_rc set_counter set_vscope v_dep v_wptr v_retain v_kind v_lit v_size v_scope v3 v set_dep].
      + unfold wf, K_Evaluated; cbn; repeat split; auto; lia.
      + intros x [<-|[<-|[<-|[<-|[]]]]]; congruence.
      + discriminate.
      + intros _. split; [reflexivity|]. exists i. split; [reflexivity|]. split; [exact Hi0|].
        rewrite Vi. cbn. split; [exact Ee|]. split; [reflexivity|lia].
      + apply CR3.
      + right. split; auto.
      + unfold scope_of. pose proof (s_ctr _ _ _ _ _ _ _ S1). cbn. change (1 <= sctr s1). lia.
    - apply CR3.
    - unfold sz in *. rewrite EL3. specialize (RB' 0). lia. }
  assert (Ai3 : fupd al r true i = true) by (now rewrite fupd_ne).
  destruct (inc_ref_ok s3 (fupd al r true) (plus1 (occ h) r) (fun _ => 0) [] i I3 Ai3) as (s4 & E4 & I4 & CO4 & Vi4 & Vj4).
  { unfold plus1. destruct (N.eqb_spec i r); [congruence|]. specialize (RB' i). unfold sz in *. rewrite EL3. lia. }
  rewrite E4. cbn [bind].
  destruct (dec_ref_keep _ _ _ _ _ _ I4 Hi0) as (s5 & E5 & I5 & CO5 & Vi5 & Vj5).
  { apply occ_pos in Hin. unfold plus1. lia. }
  rewrite E5. cbn [bind]. exists s5, (OIndex r), (fupd al r true). split; [reflexivity|].
  split; [apply gain_INV; [lia|exact I5]|]. split.
  - eapply grows_trans; [apply grows_counts; exact CO|].
    eapply grows_trans; [eapply created_grows; exact CR3|].
    eapply grows_trans; [apply grows_counts; exact CO4|]. now apply grows_counts.
  - intros _ _ _ _. exists r. split; [reflexivity|]. split; [exact Ar|]. split; [apply fupd_eq|].
    assert (Q : V s5 r = V s3 r) by (rewrite Vj5, Vj4 by auto; reflexivity). rewrite Q, Vr3, Vr. cbn.
    repeat (split; [reflexivity|]). rewrite (co_heap _ _ CO5), (co_heap _ _ CO4), Eh3, (cr_heap _ _ _ _ _ _ CR). apply CO.
Qed.

(** ** Resizing *)
Lemma vset_len s i v s' : vset s i v = Some s' -> length (vars s') = length (vars s).
Proof.
  unfold vset, upd. destruct (_ <? _)%nat; [|discriminate]. cbn [bind]. intros [= <-]. apply set_nth_length.
Qed.

Lemma var_resize_ok s h al e i n :
  INVh s h al -> room s h -> thread_ok s e -> In i h -> al i = true -> 0 < n < 2 ^ 32 ->
  exists s' r al', var_resize s e i n = Some (s', r) /\ INVh s' (gain h r) al' /\ trans s al s' al' (OResize e i n).
Proof.
  intros I R T Hin Hi Hn. pose proof (fun j => room_bound s h j R) as RB'.
  pose proof (wf_fields _ _ _ _ _ _ _ I Hi) as W. unfold wf in W.
  pose proof (al_range _ _ _ _ _ _ _ I Hi) as Hr. assert (Hi0 : i <> 0) by lia.
  destruct (al_jitc _ _ _ _ _ _ I Hi) as (J & _).
  unfold var_resize. rewrite J. cbn [bind].
  assert (RAISE : exists s' r al', Some (s, ORaise) = Some (s', r) /\ INVh s' (gain h r) al' /\ trans s al s' al' (OResize e i n)).
  { exists s, ORaise, al. split; [reflexivity|]. split; [exact I|apply trans_refl]. }
  destruct (inc_ref_ok s al (occ h) (fun _ => 0) [] i I Hi) as (s1 & E1 & I1 & CO & Vi & Vj); [specialize (RB' i); lia|].
  destruct (N.eqb_spec (v_size (V s i)) n) as [He|He].
  { rewrite E1. cbn [bind]. exists s1, (OIndex i), al. split; [reflexivity|]. split; [now apply gain_INV|].
    apply trans_grow. now apply grows_counts. }
  destruct (_ && negb (is_literal (V s i))); [exact RAISE|].
  destruct (is_dirty (V s i)); [exact RAISE|].
  destruct (negb (is_evaluated (V s i)) && (v_rc (V s i) =? 1)) eqn:Ep.
  - apply andb_true_iff in Ep as (Ee & _). apply negb_true_iff in Ee.
    rewrite E1. cbn [bind]. rewrite vget_V by (unfold sz in *; rewrite (co_len _ _ CO); lia). cbn [bind].
    destruct (resize_ok s1 (plus1 (occ h) i) al i n I1 Hi) as (s2 & E2 & I2 & Vi2 & Vj2 & L2); [now rewrite Vi|lia|].
    rewrite E2. cbn [bind]. eexists _, (OIndex i), al. split; [reflexivity|]. split; [apply gain_INV; auto|].
    set (w := set_size (V s1 i) n). constructor.
    + pose proof (vset_len _ _ _ _ E2) as VL. unfold sz. change (vars (lvn_put s2 i w)) with (vars s2). rewrite VL.
      assert (vars (lvn_drop s1 i (V s1 i)) = vars s1) as ->
        by (unfold lvn_drop; destruct (find_lvn _ _) as [k|]; [destruct (k =? i)|]; reflexivity).
      rewrite (co_len _ _ CO). lia.
    + intros j Hj. left. change (V (lvn_put s2 i w) j) with (V s2 j). rewrite Vj2 by congruence. apply CO.
    + intros j Hj. rewrite Hj. change (V (lvn_put s2 i w) j) with (V s2 j).
      destruct (N.eq_dec j i) as [->|]; [rewrite Vi2; apply CO|rewrite Vj2 by auto; apply CO].
    + intros j Hj _ Ht H. cbn in Ht. change (V (lvn_put s2 i w) j) with (V s2 j). rewrite Vj2 by congruence.
      rewrite (key_core (V s1 j) (V s j)) by apply CO.
      assert (Q : In (key_of (V s j), j) (lvn s2)) by (apply L2; [congruence|]; now rewrite (co_lvn _ _ CO)).
      cbn [lvn_put with_lvn lvn]. unfold emplace_lvn. destruct (find_lvn (key_of w) (lvn s2)); [exact Q|now right].
    + intros j Hj _ Ht. cbn in Ht. change (V (lvn_put s2 i w) j) with (V s2 j). rewrite Vj2 by congruence.
      apply core_vscope, CO.
  - destruct (is_literal (V s i)) eqn:El.
    { destruct (literal_ok s e (v_backend (V s i)) (v_type (V s i)) (v_lit (V s i)) n al (occ h) []) as
      (s' & r & al' & sc & E & I' & G & A & Hr0 & _); auto; try lia.
      { intros j. specialize (RB' j). lia. }
      rewrite E. cbn [bind fst snd]. exists s', (OIndex r), al'. split; [reflexivity|]. split; [now apply gain_INV|].
      now apply trans_grow. }
    rewrite E1. cbn [bind].
    destruct (fresh_node_ok s1 e i 0 n K_Bitcast (v_backend (V s i)) (v_type (V s i)) (v_coop (V s i)) (v_alen (V s i)) al (occ h) [])
        as (s' & r & al' & E & I' & G & A & Hr0 & Ar & _); auto; try (unfold K_Bitcast, K_Evaluated; lia).
    { unfold thread_ok in *. now rewrite (co_ts _ _ CO). }
    { intros j. specialize (RB' j). unfold sz in *. rewrite (co_len _ _ CO). lia. }
    rewrite E. cbn [bind fst snd]. exists s', (OIndex r), al'. split; [reflexivity|].
    split; [now apply gain_INV|]. apply trans_grow. eapply grows_trans; [apply grows_counts; exact CO|exact G].
Qed.
