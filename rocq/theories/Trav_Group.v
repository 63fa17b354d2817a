From Verif Require Import Base Sched_Model Sched_Spec Trav_Model Trav_Spec Trav_Proofs Trav_Total.
Local Open Scope nat_scope.

(** ** Stamps stay within the generation *)
Definition kept (gen : N) (s : st) (r : res) : Prop :=
  match r with
  | Done s' | Raised s' => forall i, scratch s' i = scratch s i \/ scratch s' i = (2 * gen)%N \/ scratch s' i = (2 * gen + 1)%N
  | _ => True
  end.
Lemma kept_refl : forall gen s, kept gen s (Done s).
Proof. intros gen s i. auto. Qed.
Lemma kept_trans : forall gen s s1 r, kept gen s (Done s1) -> kept gen s1 r -> kept gen s r.
Proof.
  intros gen s s1 r A B. unfold kept in *. destruct r; auto; intros i; specialize (A i); specialize (B i); destruct B as [->|B]; auto.
Qed.
Lemma kept_mark : forall gen s i d, kept gen s (Done (mark s i (stamp gen d))).
Proof.
  intros gen s i d j. cbn [scratch mark]. unfold fset. destruct (j =? i); [|auto]. right. destruct d; [rewrite stamp_0|rewrite stamp_S]; auto.
Qed.
Lemma kept_actions : forall gen visit, (forall i d s, kept gen s (visit i d s)) -> forall acts s, kept gen s (run_actions visit acts s).
Proof.
  intros gen visit V acts. induction acts as [|[j e|j e] acts IH]; intros s; cbn [run_actions].
  - apply kept_refl.
  - pose proof (V j e s) as K. destruct (visit j e s) as [s1| | |]; try exact K. exact (kept_trans _ _ _ _ K (IH s1)).
  - exact (IH (defer s j e)).
Qed.
Lemma traverse_kept : forall g gen size fuel i d s, kept gen s (traverse g fuel gen size i d s).
Proof.
  intros g gen size. induction fuel as [|fuel IH]; intros i d s; [exact I|]. cbn [traverse].
  destruct (nth_error g i) as [v|]; [|exact I].
  destruct ((scratch s i =? stamp gen d)%N || _); [apply kept_refl|].
  pose proof (kept_mark gen s i d) as M.
  assert (P : forall s1, kept gen s (Done s1) -> kept gen s (Done (push s1 size v i))) by (intros s1 K; exact K).
  assert (C : kept gen s match prelude v d with
                 | None => Raised (mark s i (stamp gen d))
                 | Some l => match run_actions (traverse g fuel gen size) (l ++ deps v d) (mark s i (stamp gen d)) with
                             | Done s => if n_consumed v then Raised s else if d =? 0 then Done (push s size v i) else Done s
                             | x => x end end).
  { destruct (prelude v d) as [l|]; [|exact M].
    pose proof (kept_trans _ _ _ _ M (kept_actions gen _ IH (l ++ deps v d) (mark s i (stamp gen d)))) as K.
    destruct (run_actions _ _ _) as [s1|s1| |]; try exact K. destruct (n_consumed v); [exact K|]. destruct (d =? 0); exact K. }
  destruct (n_kind v) as [|[]| | | | | | |]; try exact C; [exact M|].
  destruct d as [|d]; [exact M|]. destruct (n_dep v) as [|j r]; [exact I|]. exact (kept_trans _ _ _ _ M (IH j d _)).
Qed.
Lemma roots_kept : forall g gen size fuel l s, kept gen s (traverse_roots g fuel gen size l s).
Proof.
  intros g gen size fuel l. induction l as [|i l IH]; intros s; cbn [traverse_roots]; [apply kept_refl|].
  pose proof (traverse_kept g gen size fuel i 0 s) as K. destruct (traverse _ _ _ _ _ _ _); try exact K. exact (kept_trans _ _ _ _ K (IH _)).
Qed.
Lemma later_kept : forall g gen size fuel iter k s, kept gen s (traverse_later g iter fuel gen size k s).
Proof.
  intros g gen size fuel iter. induction iter as [|iter IH]; intros k s; cbn [traverse_later]; destruct (nth_error (later s) k) as [[i d]|]; try exact I; try apply (kept_refl gen s).
  pose proof (traverse_kept g gen size fuel i d s) as K. destruct (traverse _ _ _ _ _ _ _); try exact K. exact (kept_trans _ _ _ _ K (IH _ _)).
Qed.

(** ** Errors are raised for a reason *)
Section G.
Variable g : list node.
Variables gen size : N.
Lemma raised_actions : forall visit, (forall i d s s', visit i d s = Raised s' -> exists p, below g (i, d) p /\ stuck g (fst p)) ->
  forall acts s s', run_actions visit acts s = Raised s' -> exists j e p, In (Visit j e) acts /\ below g (j, e) p /\ stuck g (fst p).
Proof.
  intros visit V acts. induction acts as [|[j e|j e] acts IH]; intros s s' H; cbn [run_actions] in H; [discriminate| |].
  - destruct (visit j e s) as [s1|s1| |] eqn:E; try discriminate.
    + destruct (IH _ _ H) as (j' & e' & p & A & B). exists j', e', p. split; [right; exact A|exact B].
    + destruct (V _ _ _ _ E) as (p & B & C). exists j, e, p. split; [left; reflexivity|auto].
  - destruct (IH _ _ H) as (j' & e' & p & A & B). exists j', e', p. split; [right; exact A|exact B].
Qed.
Lemma traverse_raised : forall fuel i d s s', traverse g fuel gen size i d s = Raised s' -> exists p, below g (i, d) p /\ stuck g (fst p).
Proof.
  induction fuel as [|fuel IH]; intros i d s s' H; [discriminate|]. cbn [traverse] in H.
  destruct (nth_error g i) as [v|] eqn:HV; [|discriminate].
  destruct ((scratch s i =? stamp gen d)%N || _); [discriminate|].
  assert (C : live v -> n_kind v <> CallInput -> match prelude v d with
                 | None => Raised (mark s i (stamp gen d))
                 | Some l => match run_actions (traverse g fuel gen size) (l ++ deps v d) (mark s i (stamp gen d)) with
                             | Done s => if n_consumed v then Raised s else if d =? 0 then Done (push s size v i) else Done s
                             | x => x end end = Raised s' -> exists p, below g (i, d) p /\ stuck g (fst p)).
  { intros LV NC H1. destruct (prelude v d) as [l|] eqn:P.
    - destruct (acts_spec g i v d l HV LV NC P) as [AV _].
      destruct (run_actions _ _ _) as [s1|s1| |] eqn:R; try discriminate.
      + destruct (n_consumed v) eqn:CO; [|destruct (d =? 0); discriminate]. exists (i, d). split; [constructor|]. exists v. auto.
      + destruct (raised_actions _ IH _ _ _ R) as (j & e & p & A & B & C). exists p. split; [|exact C]. eapply below_step; [apply AV; exact A|exact B].
    - exists (i, d). split; [constructor|]. exists v. repeat split; auto. right. unfold prelude in P. destruct (n_kind v) as [| | |[[]|]|[[[]]|]| | | |]; try discriminate; auto. }
  unfold live in C. destruct (n_kind v) as [|[]| | | | | | |] eqn:K; try (apply C; [discriminate|discriminate|exact H]); [discriminate|].
  destruct d as [|d]; [discriminate|]. destruct (n_dep v) as [|j r] eqn:DV; [discriminate|].
  destruct (IH _ _ _ _ H) as (p & B & S). exists p. split; [|exact S]. eapply below_step; [|exact B]. eapply op_input; eauto.
Qed.

Lemma below_needed : forall roots p q, below g p q -> needed g roots p -> needed g roots q.
Proof. intros roots p q B. induction B as [|p q r O B IH]; intros N; [exact N|]. apply IH. eapply need_op; eauto. Qed.

(** ** A kernel *)
Variable rank : nat -> nat.
Hypothesis RANK : forall p q, operand g p q -> rank (fst q) < rank (fst p).
Hypothesis POS : forall i, 0 < rank i.
Variable nb : nat.
Variable roots : list nat.
Notation seen_s s := (seen gen (scratch s)).
Definition all_settled (s : st) := forall r, settled g gen nb rank s r.

Lemma below_feed : forall W q, (forall p, In p W -> needed g roots p) -> (exists p, In p W /\ feedback g p q) -> needed g roots q.
Proof. intros W q N (p & I & F). eapply need_fb; [exact (N p I)|exact F]. Qed.

Lemma roots_ok : forall fuel l s s', traverse_roots g fuel gen size l s = Done s' -> all_settled s -> incl l roots ->
  exists W ls new, ext g gen size s s' W ls new /\ (forall i, In i l -> seen_s s' (i, 0)) /\
    (forall p, In p W -> needed g roots p) /\ (forall q, In q ls -> needed g roots q) /\ ordered g (mine nb s) new.
Proof.
  intros fuel l. induction l as [|i l IH]; intros s s' H AS IN.
  - injection H as <-. exists [], [], []. split; [apply ext_refl|]. repeat split; try (intros; contradiction). apply ordered_nil.
  - cbn [traverse_roots] in H. destruct (traverse g fuel gen size i 0 s) as [s1| | |] eqn:E; try discriminate.
    destruct (traverse_ok g gen size nb rank RANK POS fuel _ _ _ _ E) as (W1 & l1 & n1 & X1 & S1 & B1 & F1 & O1).
    assert (N1 : forall p, In p W1 -> needed g roots p).
    { intros p I. apply (below_needed roots (i, 0)); [exact (B1 p I)|]. apply need_root. apply IN. left. reflexivity. }
    assert (AS1 : all_settled s1) by (intros r; exact (settled_ext _ _ _ _ _ _ _ _ _ _ _ X1 (AS r))).
    destruct (IH _ _ H AS1 ltac:(intros x I; apply IN; right; exact I)) as (W2 & l2 & n2 & X2 & S2 & N2 & F2 & O2).
    exists (W1 ++ W2), (l1 ++ l2), (n1 ++ n2). split; [exact (ext_trans _ _ _ _ _ _ _ _ _ _ _ _ X1 X2)|]. split; [|split; [|split]].
    + intros j [<-|I]; [exact (ext_mono _ _ _ _ _ _ _ _ _ X2 S1)|exact (S2 j I)].
    + intros p I. apply in_app_iff in I. destruct I; auto.
    + intros q I. apply in_app_iff in I. destruct I as [I|I]; [|exact (F2 q I)]. exact (below_feed W1 q N1 (F1 q I)).
    + apply ordered_app; [exact (O1 (AS _))|]. rewrite <- (mine_ext _ _ _ _ _ _ _ _ _ X1 (proj1 (AS 0))). exact O2.
Qed.

Lemma later_ok : forall iter fuel k s s', traverse_later g iter fuel gen size k s = Done s' -> all_settled s ->
  (forall q, In q (later s) -> needed g roots q) -> (forall q, In q (firstn k (later s)) -> seen_s s q) ->
  exists W ls new s1, s' = mkSt (scratch s1) (sched s1) [] /\ ext g gen size s s1 W ls new /\ (forall q, In q (later s1) -> seen_s s1 q) /\
    (forall p, In p W -> needed g roots p) /\ ordered g (mine nb s) new.
Proof.
  induction iter as [|iter IH]; intros fuel k s s' H AS LN DONE; cbn [traverse_later] in H; destruct (nth_error (later s) k) as [[i d]|] eqn:E; try discriminate.
  1, 3: injection H as <-; exists [], [], [], s; split; [reflexivity|]; split; [apply ext_refl|]; split; [|split; [intros p []|apply ordered_nil]];
    intros q I; apply DONE; rewrite firstn_all2; [exact I|apply nth_error_None; exact E].
  destruct (traverse g fuel gen size i d s) as [s1| | |] eqn:T; try discriminate.
  destruct (traverse_ok g gen size nb rank RANK POS fuel _ _ _ _ T) as (W1 & l1 & n1 & X1 & S1 & B1 & F1 & O1).
  assert (N1 : forall p, In p W1 -> needed g roots p).
  { intros p I. apply (below_needed roots (i, d)); [exact (B1 p I)|]. apply LN. exact (nth_error_In _ _ E). }
  assert (AS1 : all_settled s1) by (intros r; exact (settled_ext _ _ _ _ _ _ _ _ _ _ _ X1 (AS r))).
  assert (K : k < length (later s)) by (apply nth_error_Some; rewrite E; discriminate).
  destruct (IH fuel (S k) s1 s' H AS1) as (W2 & l2 & n2 & s2 & E2 & X2 & D2 & N2 & O2).
  - intros q I. rewrite (ext_later _ _ _ _ _ _ _ _ X1) in I. apply in_app_iff in I. destruct I as [I|I]; [exact (LN q I)|]. exact (below_feed W1 q N1 (F1 q I)).
  - intros q I. rewrite (ext_later _ _ _ _ _ _ _ _ X1), firstn_app in I. replace (S k - length (later s)) with 0 in I by lia. cbn [firstn] in I. rewrite app_nil_r in I.
    assert (I' : In q (firstn k (later s)) \/ q = (i, d)).
    { clear - I E. revert k I E. generalize (later s). intros l. induction l as [|x l IH]; intros k I E; [destruct k; discriminate|]. destruct k as [|k]; cbn in *.
      - injection E as ->. destruct I as [<-|[]]. auto.
      - destruct I as [<-|I]; [auto|]. destruct (IH k I E); auto. }
    destruct I' as [I'| ->]; [exact (ext_mono _ _ _ _ _ _ _ _ _ X1 (DONE q I'))|exact S1].
  - exists (W1 ++ W2), (l1 ++ l2), (n1 ++ n2), s2. split; [exact E2|]. split; [exact (ext_trans _ _ _ _ _ _ _ _ _ _ _ _ X1 X2)|]. split; [exact D2|]. split.
    + intros p I. apply in_app_iff in I. destruct I; auto.
    + apply ordered_app; [exact (O1 (AS _))|]. rewrite <- (mine_ext _ _ _ _ _ _ _ _ _ X1 (proj1 (AS 0))). exact O2.
Qed.

Lemma kernel_ok : forall iter fuel s s', nb = length (sched s) -> (forall q, ~ seen_s s q) -> later s = [] ->
  match traverse_roots g fuel gen size roots s with Done s1 => traverse_later g iter fuel gen size 0 s1 | x => x end = Done s' ->
  exists new, sched s' = sched s ++ new /\ later s' = [] /\ Forall (entry_ok g size) new /\ NoDup (vars new) /\
    (levelled g roots -> exact_schedule g roots new) /\ operands_first g new /\
    (forall i, In i (vars new) -> needed g roots (i, 0) /\ forall v, has g i v -> live v).
Proof.
  intros iter fuel s s' NB FR LA H.
  destruct (traverse_roots g fuel gen size roots s) as [s1| | |] eqn:T; try discriminate.
  assert (AS : all_settled s) by (intros r; split; [lia|]; intros j SJ; exfalso; exact (FR _ SJ)).
  destruct (roots_ok _ _ _ _ T AS (incl_refl _)) as (W1 & l1 & n1 & X1 & S1 & N1 & F1 & O1).
  assert (AS1 : all_settled s1) by (intros r; exact (settled_ext _ _ _ _ _ _ _ _ _ _ _ X1 (AS r))).
  assert (L1 : later s1 = l1) by (rewrite (ext_later _ _ _ _ _ _ _ _ X1), LA; reflexivity).
  destruct (later_ok _ _ _ _ _ H AS1 ltac:(rewrite L1; exact F1) ltac:(intros q [])) as (W2 & l2 & n2 & s2 & -> & X2 & D2 & N2 & O2).
  pose proof (ext_trans _ _ _ _ _ _ _ _ _ _ _ _ X1 X2) as X. set (W := W1 ++ W2) in *. set (new := n1 ++ n2) in *.
  assert (NW : forall p, In p W -> needed g roots p) by (intros p I; apply in_app_iff in I; destruct I; auto).
  assert (SW : forall q, seen_s s2 q -> exists p, In p W /\ covers p q).
  { intros q Q. apply (ext_seen _ _ _ _ _ _ _ _ X) in Q. destruct Q as [Q|Q]; [exfalso; exact (FR _ Q)|exact Q]. }
  assert (ORD : ordered g [] new).
  { apply ordered_app; [|].
    - replace ([] : list sv) with (mine nb s) by (unfold mine; apply skipn_all2; lia). exact O1.
    - cbn [app]. replace n1 with (mine nb s1) by (rewrite (mine_ext _ _ _ _ _ _ _ _ _ X1 (proj1 (AS 0))); unfold mine; rewrite skipn_all2 by lia; reflexivity). exact O2. }
  exists new. split; [exact (ext_sched _ _ _ _ _ _ _ _ X)|]. split; [reflexivity|]. split; [exact (ext_entry _ _ _ _ _ _ _ _ X)|]. split; [exact (ext_nodup _ _ _ _ _ _ _ _ X)|].
  split; [|split].
  - intros LEV. split; [exact (ext_nodup _ _ _ _ _ _ _ _ X)|].
    assert (ALL : forall p, needed g roots p -> seen_s s2 p).
    { intros p N. induction N as [i I|p q N IH O|p q N IH F].
      - exact (ext_mono _ _ _ _ _ _ _ _ _ X2 (S1 i I)).
      - destruct (SW p IH) as ([i d] & I & [C1 C2]). destruct p as [i' d']. cbn in C1, C2. subst i'.
        destruct (Nat.eq_dec d d') as [->|ND]; [exact (ext_op _ _ _ _ _ _ _ _ X _ _ I O)|].
        exfalso. exact (proj1 (LEV i d d' (NW _ I) N ND d' q) O).
      - destruct (SW p IH) as ([i d] & I & [C1 C2]). destruct p as [i' d']. cbn in C1, C2. subst i'.
        destruct (Nat.eq_dec d d') as [->|ND].
        + apply D2. rewrite (ext_later _ _ _ _ _ _ _ _ X). rewrite LA. cbn [app]. exact (ext_fb _ _ _ _ _ _ _ _ X _ _ I F).
        + exfalso. exact (proj2 (LEV i d d' (NW _ I) N ND d' q) F). }
    intros i. rewrite (ext_new _ _ _ _ _ _ _ _ X). split.
    + intros [I L]. split; [exact (NW _ I)|exact L].
    + intros [N L]. split; [|exact L]. destruct (SW _ (ALL _ N)) as ([j d] & I & [C1 C2]). cbn in C1, C2. subst j. rewrite (C2 eq_refl) in I. exact I.
  - intros i k I O L. unfold vars in I. apply in_map_iff in I. destruct I as (x & EX & I). apply in_split in I. destruct I as (a & b & EN).
    rewrite <- EX in O. pose proof (ORD a x b k EN O L) as K. cbn [app] in K. apply in_split in K. destruct K as (u & v & EK).
    exists u, v, (vars b). rewrite EN, vars_app. cbn [vars map]. unfold vars in *. rewrite EK, EX, <- app_assoc. reflexivity.
  - intros i I. apply (ext_new _ _ _ _ _ _ _ _ X) in I. split; [apply NW; exact (proj1 I)|exact (proj2 I)].
Qed.
End G.
