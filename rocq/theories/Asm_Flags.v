(** The flags that tell which parameters of a kernel are written. *)
From Verif Require Import Base Asm_Model.
Local Open Scope N_scope.

Definition flagged (ps : list N) (ws : list bool) (bs : list (N * N * N)) : Prop :=
  length ps = length ws /\ map fst (filter snd (combine ps ws)) = map snd bs.

Lemma combine_app {A B} (l l' : list A) (r r' : list B) : length l = length r ->
  combine (l ++ l') (r ++ r') = combine l r ++ combine l' r'.
Proof. revert r. induction l as [|a l IH]; intros [|x r] H; cbn in *; try discriminate; auto. f_equal. apply IH. lia. Qed.
Lemma flagged_app ps ws bs qs vs cs : flagged ps ws bs -> flagged qs vs cs -> flagged (ps ++ qs) (ws ++ vs) (bs ++ cs).
Proof.
  intros [A B] [C D]. split; [rewrite !app_length; lia|]. rewrite combine_app by auto. rewrite filter_app, !map_app. now rewrite B, D.
Qed.
Lemma place_flags b w size malloc s v s' : flagged (a_params s) (a_write s) (a_bufs s) -> place b w size malloc s v = Done s' ->
  flagged (a_params s') (a_write s') (a_bufs s').
Proof.
  intros F H. unfold place in H. destruct (negb _); [discriminate|].
  destruct (v_kind v); try destruct (_ && _); try destruct (malloc _ _); try destruct (_ =? T_Pointer); try discriminate;
    injection H as <-; cbn [add_slot a_params a_write a_bufs]; apply flagged_app; auto; split; reflexivity.
Qed.
Lemma place_all_flags b w size malloc g : forall s s', flagged (a_params s) (a_write s) (a_bufs s) ->
  place_all b w size malloc s g = Done s' -> flagged (a_params s') (a_write s') (a_bufs s').
Proof.
  induction g as [|v g IH]; intros s s' F H; cbn in H; [injection H as <-; auto|].
  destruct (place b w size malloc s v) eqn:E; try discriminate. apply (IH a); auto. exact (place_flags _ _ _ _ _ _ _ F E).
Qed.
Theorem allocate_flags b w size malloc cb g k : allocate b w size malloc cb g = Done k ->
  length (k_params k) = length (k_write k) /\ map fst (filter snd (combine (k_params k) (k_write k))) = map snd (k_bufs k).
Proof.
  unfold allocate. destruct (place_all b w size malloc (initial b size) g) as [s| |] eqn:E; try discriminate. intros [= <-].
  assert (F : flagged (a_params s) (a_write s) (a_bufs s)).
  { apply (place_all_flags b w size malloc g (initial b size)); auto. destruct b; split; reflexivity. }
  unfold finish. destruct (needs_calls g); cbn [k_params k_write k_bufs]; [|exact F].
  rewrite <- (app_nil_r (a_bufs s)). apply flagged_app; auto. split; reflexivity.
Qed.
