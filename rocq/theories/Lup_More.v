(** Sizes of recorded loops; state that nobody needs. *)
From Verif Require Import Base Lup_Model Lup_Spec Lup_Proofs.
Local Open Scope N_scope.

Section More.
Context {K : Type}.
Variable expr_eq : forall a b : expr K, {a = b} + {a <> b}.
Notation var := (var K).

Lemma finish_sizes llvm c : forall el size (outer inner outs : list var) sz new, 1 <= size -> (forall v, In v outs -> 1 <= v_size v) ->
  finish expr_eq llvm c el size outer inner outs = Some (sz, new) ->
  (size = sz \/ size = 1) /\ forall v, In (Some v) new -> v_size v = 1 \/ v_size v = sz.
Proof.
  induction el as [|b el IH]; intros size [|v outer] [|p inner] [|q outs] sz new P1 Po H; cbn [finish] in H; try discriminate; [injection H as <- <-; split; [now left|intros v []]|].
  assert (Po' : forall v, In v outs -> 1 <= v_size v) by (intros x Hx; apply Po; now right). pose proof (Po q (or_introl eq_refl)) as Pq.
  destruct b; cbn [negb] in H.
  - destruct (_ && _) in H; [discriminate|]. destruct (finish expr_eq llvm c el size outer inner outs) as [[sz' new']|] eqn:E; [|discriminate]. cbn [bind fst snd] in H. injection H as <- <-.
    destruct (IH _ _ _ _ _ _ P1 Po' E) as [A B]. split; [assumption|]. intros x [Hx|Hx]; [discriminate Hx|now apply B].
  - destruct (negb (v_size q =? size) && negb (size =? 1) && negb (v_size q =? 1)) eqn:Ec; [discriminate|]. destruct (llvm && _) in H; [discriminate|].
    destruct (finish expr_eq llvm c el (N.max (v_size q) size) outer inner outs) as [[sz' new']|] eqn:E; [|discriminate]. cbn [bind fst snd] in H. injection H as <- <-.
    assert (P1' : 1 <= N.max (v_size q) size) by lia. destruct (IH _ _ _ _ _ _ P1' Po' E) as [A B].
    assert (C : v_size q = size \/ size = 1 \/ v_size q = 1).
    { destruct (v_size q =? size) eqn:E1; [apply N.eqb_eq in E1; now left|]. destruct (size =? 1) eqn:E2; [apply N.eqb_eq in E2; right; now left|]. destruct (v_size q =? 1) eqn:E3; [apply N.eqb_eq in E3; right; now right|]. discriminate Ec. }
    clear Ec E IH. split; [lia|]. intros x [Hx|Hx]; [injection Hx as <-; lia|now apply B].
Qed.
Lemma record_sizes llvm optimize (body : recorder K) outer l :
  (forall vs, length vs = length outer -> length (snd (body vs)) = length outer /\ forall v, In v (snd (body vs)) -> 1 <= v_size v) ->
  record_loop expr_eq llvm optimize body outer = Some l -> v_size (l_cond l) <= l_size l /\ forall v, In (Some v) (l_new l) -> v_size v = 1 \/ v_size v = l_size l.
Proof.
  intros HL H. destruct (record_inv expr_eq (fun _ _ _ => 0) (fun _ _ => 0) (fun _ l => (false, l)) 0 llvm optimize body outer l ltac:(intros vs Hv; apply HL; assumption) H) as (size & el & Eel & Ein & Ec & Efin).
  pose proof (phis_length (K := K) 0 outer) as Lp.
  assert (Le : length el = length outer) by (rewrite Eel; apply (eliminations_length expr_eq (fun _ _ _ => 0) (fun _ _ => 0)); [exact Lp|apply HL; exact Lp]).
  assert (Li : length (l_inner l) = length outer) by (rewrite Ein; apply replace_length; [exact Le|exact Lp]).
  assert (G : forall (outer inner outs : list var) s, s <= loop_size expr_eq s outer inner outs).
  { clear. induction outer as [|v outer IH]; intros [|p inner] [|q outs] s; cbn [loop_size]; try lia. eapply N.le_trans; [|apply IH]. destruct (same _ _ _); lia. }
  pose proof (G outer (l_inner l) (snd (body (l_inner l))) (N.max 1 (v_size (l_cond l)))) as Gs.
  assert (P1 : 1 <= loop_size expr_eq (N.max 1 (v_size (l_cond l))) outer (l_inner l) (snd (body (l_inner l)))) by lia.
  destruct (finish_sizes llvm (l_cond l) el _ outer (l_inner l) _ _ _ P1 (proj2 (HL _ Li)) Efin) as [A B]. split; [|exact B].
  destruct (finish_shape expr_eq (fun _ _ _ => 0) (fun _ _ => 0) _ _ _ _ _ _ _ _ _ Efin) as (_ & _ & M). lia.
Qed.

(** ** Needed state *)
Variables (sem : N -> K -> list N -> N) (outv : N -> nat -> N).
Lemma seen_in_spec i seen : seen_in i seen = true <-> In i seen.
Proof. unfold seen_in. rewrite existsb_exists. split; [intros (y & H & E); apply Nat.eqb_eq in E; now subst|intros H; exists i; split; [assumption|apply Nat.eqb_refl]]. Qed.
Fixpoint eval_agree (k : N) (s s' : list N) (e : expr K) {struct e} : (forall i, In i (phis_of e) -> nth i s 0 = nth i s' 0) -> eval sem outv k s e = eval sem outv k s' e.
Proof.
  destruct e as [x|i|j|o args]; intros H; cbn [eval]; [reflexivity|apply H; now left|reflexivity|].
  f_equal. cbn [phis_of] in H. induction args as [|a args IHa]; [reflexivity|]. cbn [map]. f_equal.
  - apply eval_agree. intros i Hi. apply H. cbn [flat_map]. apply in_or_app. now left.
  - apply IHa. intros i Hi. apply H. cbn [flat_map]. apply in_or_app. now right.
Qed.

(** Visiting: what is visited contains the work and is closed *)
Lemma visit_closed (l : loop K) : forall fuel work seen r, visit fuel l work seen = Some r ->
  (forall i, In i seen -> forall j, In j (deps l i) -> In j seen \/ In j work) ->
  (forall i, In i seen \/ In i work -> In i r) /\ (forall i, In i r -> forall j, In j (deps l i) -> In j r).
Proof.
  induction fuel as [|fuel IH]; intros work seen r H Cl; cbn [visit] in H; [discriminate|]. destruct work as [|i work].
  - injection H as <-. split; [intros i [Hi|[]]; assumption|]. intros i Hi j Hj. destruct (Cl i Hi j Hj) as [X|[]]. exact X.
  - destruct (seen_in i seen) eqn:E.
    + apply seen_in_spec in E. destruct (IH _ _ _ H) as [A B].
      { intros a Ha j Hj. destruct (Cl a Ha j Hj) as [X|[<-|X]]; [now left|now left|now right]. }
      split; [|exact B]. intros a [Ha|[<-|Ha]]; apply A; [now left|now left|now right].
    + destruct (IH _ _ _ H) as [A B].
      { intros a [<-|Ha] j Hj; [right; apply in_or_app; now left|]. destruct (Cl a Ha j Hj) as [X|[<-|X]]; [left; now right|left; now left|right; apply in_or_app; now right]. }
      split; [|exact B]. intros a [Ha|[<-|Ha]]; apply A; [left; now right|left; now left|right; apply in_or_app; now right].
Qed.
(** It ends.  Measure: work, and the dependences of what may still be visited *)
Fixpoint cost (l : loop K) (n : nat) (seen : list nat) : nat :=
  match n with O => 0 | S n => (if seen_in n seen then 0 else length (deps l n)) + cost l n seen end.
Lemma cost_le (l : loop K) i seen : forall n, (cost l n (i :: seen) <= cost l n seen)%nat.
Proof. induction n as [|n IH]; cbn [cost]; [lia|]. unfold seen_in at 1. cbn [existsb]. fold (seen_in n seen). destruct (n =? i)%nat; cbn [orb]; destruct (seen_in n seen); lia. Qed.
Lemma cost_drop (l : loop K) i seen : seen_in i seen = false -> forall n, (i < n)%nat -> (cost l n (i :: seen) + length (deps l i) <= cost l n seen)%nat.
Proof.
  intros H. induction n as [|n IH]; intros L; [lia|]. cbn [cost]. unfold seen_in at 1. cbn [existsb]. fold (seen_in n seen). destruct (Nat.eq_dec i n) as [->|Ne].
  - rewrite Nat.eqb_refl, H. cbn [orb]. pose proof (cost_le l n seen n). lia.
  - rewrite (proj2 (Nat.eqb_neq n i)) by lia. cbn [orb]. specialize (IH ltac:(lia)). lia.
Qed.
Lemma visit_ends (l : loop K) : forall fuel work seen, (length work + cost l (length (l_new l)) seen < fuel)%nat -> exists r, visit fuel l work seen = Some r.
Proof.
  induction fuel as [|fuel IH]; intros work seen H; [lia|]. cbn [visit]. destruct work as [|i work]; [now eexists|]. cbn [length] in H. destruct (seen_in i seen) eqn:E; [apply IH; lia|].
  apply IH. rewrite app_length. destruct (Nat.lt_ge_cases i (length (l_new l))) as [Hi|Hi].
  - pose proof (cost_drop l i seen E _ Hi). lia.
  - unfold deps. rewrite (proj2 (nth_error_None _ _) Hi). cbn [length]. pose proof (cost_le l i seen (length (l_new l))). lia.
Qed.

(** The needed state does not depend on the rest *)
Variable w : N.
Lemma nth_forget seen junk s i : (i < length s)%nat -> In i seen -> nth i (forget seen junk s) 0 = nth i s 0.
Proof.
  intros Hi Hs. unfold forget. set (g := fun i => if seen_in i seen then nth i s 0 else junk i). rewrite (nth_indep _ 0 (g 0%nat)) by (rewrite map_length, seq_length; assumption).
  rewrite map_nth, seq_nth by assumption. unfold g. cbn [plus]. now rewrite (proj2 (seen_in_spec i seen) Hs).
Qed.
Lemma forget_length seen junk s : length (forget seen junk s) = length s.
Proof. unfold forget. now rewrite map_length, seq_length. Qed.
Lemma news_nth (l : loop K) k s0 : forall new s i, length s = length new ->
  nth i (news sem outv l k s0 s new) 0 = match nth_error new i with Some (Some v) => if active sem outv l k s0 then eval sem outv k s0 (v_expr v) else nth i s 0 | Some None => nth i s 0 | None => 0 end.
Proof.
  induction new as [|n new IH]; intros [|x s] i L; cbn [length] in L; try lia; [destruct i; reflexivity|]. destruct n as [v|]; cbn [news]; destruct i as [|i]; cbn [nth nth_error]; try reflexivity; apply IH; lia.
Qed.
Lemma news_length (l : loop K) k s0 : forall new s, length s = length new -> length (news sem outv l k s0 s new) = length new.
Proof. induction new as [|n new IH]; intros [|x s] L; cbn [length] in L; try lia; [reflexivity|]. destruct n as [v|]; cbn [news length]; rewrite IH; lia. Qed.
Lemma needed_ok (l : loop K) os f seen : needed f l os = Some seen ->
  (forall i, In i os -> In i seen) /\ (forall i, In i (phis_of (v_expr (l_cond l))) -> In i seen) /\
  (forall i v j, In i seen -> nth_error (l_new l) i = Some (Some v) -> In j (phis_of (v_expr v)) -> In j seen).
Proof.
  intros H. unfold needed in H. destruct (visit_closed l f _ _ _ H ltac:(intros i [])) as [A B]. repeat split.
  - intros i Hi. apply A. right. apply in_or_app. now left.
  - intros i Hi. apply A. right. apply in_or_app. now right.
  - intros i v j Hi Hv Hj. apply (B i Hi). unfold deps. rewrite Hv. right. apply in_or_app. now right.
Qed.
Lemma phis_range (s s' : list N) (seen : list nat) : length s = length s' -> (forall i, (i < length s)%nat -> In i seen -> nth i s 0 = nth i s' 0) -> forall i, In i seen -> nth i s 0 = nth i s' 0.
Proof. intros L H i Hi. destruct (Nat.lt_ge_cases i (length s)) as [X|X]; [now apply H|]. rewrite !nth_overflow by lia. reflexivity. Qed.
Lemma run_needed_ok (l : loop K) os f seen junk : needed f l os = Some seen -> forall fuel (s s' : N -> list N),
  (forall k, length (s k) = length (l_new l) /\ length (s' k) = length (l_new l) /\ forall i, In i seen -> nth i (s k) 0 = nth i (s' k) 0) ->
  match run_loop sem outv w fuel l s, run_needed sem outv w seen junk fuel l s' with
  | Some r, Some r' => forall k i, In i seen -> nth i (r k) 0 = nth i (r' k) 0
  | None, None => True
  | _, _ => False
  end.
Proof.
  intros Hn. destruct (needed_ok l os f seen Hn) as (_ & Nc & Nn). induction fuel as [|fuel IH]; intros s s' Hs; cbn [run_loop run_needed]; [exact I|]. cbv zeta.
  set (s2 := fun k => forget seen (junk fuel k) (s' k)).
  assert (H2 : forall k, length (s2 k) = length (l_new l) /\ forall i, In i seen -> nth i (s k) 0 = nth i (s2 k) 0).
  { intros k. destruct (Hs k) as (L1 & L2 & E). unfold s2. rewrite forget_length. split; [assumption|]. apply phis_range; [rewrite forget_length; lia|]. intros i Hi Hin. rewrite nth_forget by (try assumption; lia). now apply E. }
  assert (Ha : forall k, active sem outv l k (s k) = active sem outv l k (s2 k)).
  { intros k. unfold active. rewrite (eval_agree k (s k) (s2 k)); [reflexivity|]. intros i Hi. apply (H2 k). now apply Nc. }
  assert (Ex : existsb (fun k => active sem outv l k (forget seen (junk fuel k) (s' k))) (lanes w) = existsb (fun k => active sem outv l k (s k)) (lanes w)).
  { change (existsb (fun k => active sem outv l k (s2 k)) (lanes w) = existsb (fun k => active sem outv l k (s k)) (lanes w)). clear - Ha. induction (lanes w) as [|k ks IHk]; cbn [existsb]; [reflexivity|]. now rewrite Ha, IHk. }
  rewrite Ex.
  destruct (existsb (fun k => active sem outv l k (s k)) (lanes w)); [|intros k i Hi; now apply H2].
  apply (IH (fun k => news sem outv l k (s k) (s k) (l_new l)) (fun k => news sem outv l k (s2 k) (s2 k) (l_new l))). intros k. destruct (Hs k) as (L1 & L2 & _). destruct (H2 k) as (L3 & E). split; [now apply news_length|]. split; [now apply news_length|].
  intros i Hi. rewrite !news_nth by assumption. destruct (nth_error (l_new l) i) as [[v|]|] eqn:Ev; [|now apply E|reflexivity].
  rewrite <- Ha. destruct (active sem outv l k (s k)); [|now apply E]. apply eval_agree. intros j Hj. apply E. exact (Nn i v j Hi Ev Hj).
Qed.
End More.
