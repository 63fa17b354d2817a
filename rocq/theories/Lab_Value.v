(** Labels and callbacks: values of copies; several components *)
From Verif Require Import Base Lab_Model Lab_Spec Lab_Inv Lab_Free Lab_Steps.
Local Open Scope N_scope.

Lemma holds_mono att att' :
  (forall i a, att i = Some a -> exists a', att' i = Some a' /\ a_shape a' = a_shape a) ->
  forall i t, holds att i t -> holds att' i t.
Proof.
  intros Q. fix IH 3. intros i t H. destruct H as [i a k d ds A S1 D|i a j t A S1 H|i a k ds ts A S1 D F].
  - destruct (Q _ _ A) as (a' & A' & S2). apply (ho_leaf _ i a' k d ds); congruence.
  - destruct (Q _ _ A) as (a' & A' & S2). apply (ho_copy _ i a' j t); [exact A'|congruence|]. exact (IH _ _ H).
  - destruct (Q _ _ A) as (a' & A' & S2). apply (ho_node _ i a' k ds ts); [exact A'|congruence|exact D|].
    clear - IH F. induction F as [|x y l l' H F IHF]; constructor; [exact (IH _ _ H)|exact IHF].
Qed.

Lemma label_values c i t j c' : effect c (SetLabel i t) (RVar j) c' ->
  (forall x, holds (c_att c) i x -> holds (c_att c') j x) /\
  (forall k x, holds (c_att c) k x -> holds (c_att c') k x).
Proof.
  intros H. inversion H as [ | | | |i0 a t0 AL F A E1 E2 E3|i0 a t0 j0 NA F A AN E1 E2 E3| | | | | | | | | | ]; subst; cbn [c_att].
  - assert (M : forall k x, holds (c_att c) k x -> holds (fset (c_att c) j (Some {| a_shape := a_shape a; a_shared := a_shared a;
        a_label := labelled (c_pre c) (means t); a_cb := a_cb a |})) k x).
    { apply holds_mono. intros k b B. unfold fset. destruct (Nat.eqb_spec k j) as [->|_]; [|eauto].
      eexists. split; [reflexivity|]. cbn. congruence. }
    auto.
  - set (b := {| a_shape := again i (a_shape a); a_shared := false; a_label := labelled (c_pre c) (means t); a_cb := None |}).
    assert (M : forall k x, holds (c_att c) k x -> holds (fset (c_att c) j (Some b)) k x).
    { apply holds_mono. intros k b' B. unfold fset. destruct (Nat.eqb_spec k j) as [->|_]; [congruence|eauto]. }
    split; [|exact M]. intros x Hx.
    assert (NEW : fset (c_att c) j (Some b) j = Some b) by (unfold fset; now rewrite Nat.eqb_refl).
    destruct (a_shape a) as [[k d] ds] eqn:SH. destruct d.
    + apply (ho_leaf _ j b k Lit ds) in NEW; [|reflexivity|discriminate].
      replace x with (Leaf k Lit); [exact NEW|]. inversion Hx; subst; congruence.
    + apply (ho_copy _ j b i x NEW eq_refl). now apply M.
    + apply (ho_leaf _ j b k Mem ds) in NEW; [|reflexivity|discriminate].
      replace x with (Leaf k Mem); [exact NEW|]. inversion Hx; subst; congruence.
Qed.

(** Every variable has a value. *)
Lemma has_value s ext att : Good s ext att [] -> forall i a, att i = Some a -> exists t, holds att i t.
Proof.
  intros G. destruct (g_rank _ _ _ _ G) as (rank & M & R).
  assert (H : forall n i v, get s i = Some v -> (rank i < n)%nat -> exists t, holds att i t).
  { induction n as [|n IH]; intros i v E L; [lia|].
    destruct (g_att _ _ _ _ G _ _ E) as (a & A & [S1 _]). destruct (R _ _ E) as [_ R2].
    assert (D : forall j, In j (x_deps v) -> exists t, holds att j t).
    { intros j I1. destruct (get s j) as [w|] eqn:Ej.
      - apply (IH j w Ej). specialize (R2 _ I1). lia.
      - exfalso. apply (g_live _ _ _ _ G j); [|exact Ej]. apply in_or_app. right. apply In_deps. eauto. }
    unfold key_of in S1. destruct (x_kind v) eqn:KD.
    - exists (Leaf (x_key v) Lit). apply (ho_leaf _ i a _ _ _ A S1). discriminate.
    - assert (TS : exists ts, Forall2 (holds att) (x_deps v) ts).
      { clear - D. induction (x_deps v) as [|j l IHl]; [exists []; constructor|].
        destruct (D j (or_introl eq_refl)) as [t Ht]. destruct IHl as [ts Hts]; [intros q I1; apply D; now right|].
        exists (t :: ts). now constructor. }
      destruct TS as [ts TS]. destruct (N.eq_dec (x_key v) bitcast) as [Q|Q].
      + destruct (x_deps v) as [|j [|q l]] eqn:DV.
        * exists (Apply (x_key v) ts). apply (ho_node _ i a _ _ _ A S1); [right; discriminate|exact TS].
        * destruct (D j (or_introl eq_refl)) as [t Ht]. exists t. apply (ho_copy _ i a j t A); [now rewrite Q in S1|exact Ht].
        * exists (Apply (x_key v) ts). apply (ho_node _ i a _ _ _ A S1); [right; discriminate|exact TS].
      + exists (Apply (x_key v) ts). apply (ho_node _ i a _ _ _ A S1); [now left|exact TS].
    - exists (Leaf (x_key v) Mem). apply (ho_leaf _ i a _ _ _ A S1). discriminate. }
  intros i a A. destruct (att_get _ _ _ _ G _ _ A) as (v & E & _). apply (H (S (rank i)) i v E). lia.
Qed.

Lemma served_ok l : forall s c, CI s c -> served s c l.
Proof.
  induction l as [|o l IH]; intros s c H; cbn [served];
    (split; [intros i I1; destruct (held_get _ _ _ H I1) as (v & a & _ & A & _); exact (has_value _ _ _ (ci_good _ _ H) _ _ A)|]).
  - exact I.
  - intros LG. destruct (step_ok s c o H LG) as (s' & x & c' & E & EF & H'). exists s', x, c'.
    split; [exact E|]. split; [exact EF|]. split; [apply (ci_log _ _ H')|]. now apply IH.
Qed.
