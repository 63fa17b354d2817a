From Verif Require Import Base Arith_Model Par_Model Par_Proofs Red_Model Red_Plan Comp_Proofs Mkperm_Sort
  Exp_Model Exp_Spec Exp_Proofs.
Local Open Scope N_scope.

Section Acc.
Context {V : Type}.
Variables (op : V -> V -> V) (ident d : V).
Hypothesis assoc : forall x y z, op (op x y) z = op x (op y z).
Hypothesis comm : forall x y, op x y = op y x.
Hypothesis id_r : forall x, op x ident = x.

(** All copies of entry [i], combined. *)
Definition total (exp size : N) (buf : list V) (i : N) : V :=
  fold_left op (map (fun t => nth (N.to_nat (i + t * size)) buf d) (range_lt 1 exp))
            (nth (N.to_nat i) buf d).

Lemma fold_op_start l x v : fold_left op l (op x v) = op (fold_left op l x) v.
Proof using assoc comm.
  revert x. induction l as [|y l IH]; intros x; cbn; [auto|].
  rewrite <- IH. f_equal. rewrite !assoc. f_equal. apply comm.
Qed.
Lemma fold_update l t v (f g : N -> V) x : NoDup l -> In t l ->
  (forall s, s <> t -> g s = f s) -> g t = op (f t) v ->
  fold_left op (map g l) x = op (fold_left op (map f l) x) v.
Proof using assoc comm.
  intros ND. revert x. induction ND as [|a l Hn ND IH]; intros x Hi E Et; [destruct Hi|].
  cbn [map fold_left]. destruct Hi as [->|Hi].
  - rewrite Et, <- assoc, fold_op_start. f_equal. f_equal. apply map_ext_in. intros s Hs. apply E. congruence.
  - rewrite (E a) by congruence. now apply IH.
Qed.
Lemma fold_same l (f g : N -> V) x : (forall s, In s l -> g s = f s) ->
  fold_left op (map g l) x = fold_left op (map f l) x.
Proof. intros E. f_equal. now apply map_ext_in. Qed.

Lemma nth_set_nth n (x : V) l k : (n < length l)%nat -> nth k (set_nth n x l) d = if (k =? n)%nat then x else nth k l d.
Proof.
  intros H. destruct (Nat.eqb_spec k n) as [->|Ne].
  - apply nth_error_nth. now apply nth_error_set_nth_eq.
  - destruct (nth_error l k) eqn:E.
    + rewrite (nth_error_nth l k d E). apply nth_error_nth. rewrite nth_error_set_nth_neq; auto.
    + rewrite (nth_overflow l) by now apply nth_error_None.
      apply nth_overflow. rewrite set_nth_length. now apply nth_error_None.
Qed.

(** Updating copy [t] of entry [i0] updates the total of [i0] only. *)
Lemma total_update exp size buf t i0 v i :
  N.of_nat (length buf) = exp * size -> i0 < size -> i < size -> t < exp ->
  total exp size (set_nth (N.to_nat (t * size + i0)) (op (nth (N.to_nat (t * size + i0)) buf d) v) buf) i
  = if i0 =? i then op (total exp size buf i) v else total exp size buf i.
Proof using assoc comm.
  clear id_r ident. intros Hl Hi0 Hi Ht.
  assert (B : forall s, s < exp -> s * size + size <= exp * size) by (intros; nia).
  assert (Inj : forall s, N.to_nat (i + s * size) = N.to_nat (t * size + i0) -> s = t /\ i = i0).
  { intros s H. assert (H' : s * size + i = t * size + i0) by lia.
    destruct (N.lt_total s t) as [L|[->|L]]; [|lia|]; exfalso.
    - assert ((s + 1) * size <= t * size) by (apply N.mul_le_mono_r; lia). lia.
    - assert ((t + 1) * size <= s * size) by (apply N.mul_le_mono_r; lia). lia. }
  assert (Len : (N.to_nat (t * size + i0) < length buf)%nat) by (specialize (B t Ht); lia).
  unfold total. rewrite (nth_set_nth _ _ _ (N.to_nat i)) by auto.
  destruct (N.eqb_spec i0 i) as [->|Ne].
  - destruct (N.eq_dec t 0) as [->|Nt].
    + replace (0 * size + i) with i by lia. rewrite Nat.eqb_refl. rewrite fold_op_start. f_equal.
      apply fold_same. intros s Hs. apply range_lt_In in Hs. rewrite nth_set_nth by lia.
      destruct (Nat.eqb_spec (N.to_nat (i + s * size)) (N.to_nat i)) as [E|E]; auto. exfalso. nia.
    + destruct (Nat.eqb_spec (N.to_nat i) (N.to_nat (t * size + i))) as [E|_].
      { exfalso. nia. }
      apply (fold_update _ t); [apply range_NoDup|apply range_lt_In; lia| |].
      * intros s Ns. rewrite nth_set_nth by auto.
        destruct (Nat.eqb_spec (N.to_nat (i + s * size)) (N.to_nat (t * size + i))) as [E|E]; auto.
        apply Inj in E. tauto.
      * rewrite nth_set_nth by auto. replace (i + t * size) with (t * size + i) by lia. now rewrite Nat.eqb_refl.
  - destruct (Nat.eqb_spec (N.to_nat i) (N.to_nat (t * size + i0))) as [E|_].
    { exfalso. destruct (Inj 0); [|congruence]. replace (i + 0 * size) with i by lia. auto. }
    apply fold_same. intros s Hs. rewrite nth_set_nth by auto.
    destruct (Nat.eqb_spec (N.to_nat (i + s * size)) (N.to_nat (t * size + i0))) as [E|E]; auto.
    apply Inj in E. destruct E. congruence.
Qed.

Lemma accumulate_ok exp size rep pool us : forall buf,
  N.of_nat (length buf) = exp * size -> rep * pool = exp -> 0 < rep ->
  Forall (fun u => fst (fst u) < pool /\ snd (fst u) < size) us ->
  exists buf', accumulate_all op (rep * size) buf us = Some buf' /\ length buf' = length buf /\
    forall i, i < size -> total exp size buf' i = fold_left op (sent_to i us) (total exp size buf i).
Proof using assoc comm.
  clear id_r ident. induction us as [|((w, i0), v) us IH]; intros buf Hl He Hr F.
  - exists buf. auto.
  - inversion F as [|? ? (Hw & Hi0) F']; subst. cbn [fst snd] in *.
    assert (Ht : w * rep < rep * pool) by nia.
    assert (Hb : (N.to_nat (w * rep * size + i0) < length buf)%nat).
    { assert ((w * rep + 1) * size <= rep * pool * size) by (apply N.mul_le_mono_r; lia). lia. }
    cbn [accumulate_all accumulate]. replace (w * (rep * size)) with (w * rep * size) by lia.
    rewrite (nth_error_nth' buf d Hb). cbn [bind].
    destruct (IH (set_nth (N.to_nat (w * rep * size + i0)) (op (nth (N.to_nat (w * rep * size + i0)) buf d) v) buf))
      as (buf' & E & L & T); auto.
    { now rewrite set_nth_length. }
    exists buf'. split; [exact E|]. rewrite set_nth_length in L. split; [exact L|].
    intros i Hi. rewrite T by auto. rewrite total_update by auto.
    unfold sent_to. cbn [filter fst snd]. destruct (N.eqb_spec i0 i); auto.
Qed.

Lemma total_expanded xs exp size i :
  N.of_nat (length xs) = size -> i < size ->
  total exp size (xs ++ repeat ident (N.to_nat (exp * size) - length xs)) i = nth (N.to_nat i) xs d.
Proof using id_r.
  clear assoc comm. intros Hl Hi. unfold total. rewrite app_nth1 by lia.
  assert (forall l x, (forall s, In s l -> 1 <= s < exp) ->
    fold_left op (map (fun t => nth (N.to_nat (i + t * size)) (xs ++ repeat ident (N.to_nat (exp * size) - length xs)) d) l) x = x).
  { induction l as [|s l IH]; intros x H; cbn [map fold_left]; [auto|].
    assert (Hs : 1 <= s < exp) by (apply H; now left).
    rewrite app_nth2 by nia.
    assert (s * size + size <= exp * size) by nia.
    assert (nth (N.to_nat (i + s * size) - length xs) (repeat ident (N.to_nat (exp * size) - length xs)) d = ident) as ->.
    { assert (K : (N.to_nat (i + s * size) - length xs < N.to_nat (exp * size) - length xs)%nat) by nia.
      eapply repeat_spec. apply nth_In. rewrite repeat_length. exact K. }
    rewrite id_r. apply IH. intros; apply H. now right. }
  apply H. intros s Hs. now apply range_lt_In in Hs.
Qed.
End Acc.

Theorem expand_run {V} (op : V -> V -> V) (ident d : V) xs buf scale pool tsize ideal us ptr :
  (forall x y z, op (op x y) z = op x (op y z)) -> (forall x y, op x y = op y x) -> (forall x, op x ident = x) ->
  let size := N.of_nat (length xs) in
  0 < size < 2 ^ 32 -> 2 <= pool < 2 ^ 32 -> In tsize [2; 4; 8] -> 16 <= ideal <= 2 ^ 31 ->
  Forall (fun u => fst (fst u) < pool /\ snd (fst u) < size) us ->
  expand ident pool tsize xs = Some (buf, scale) ->
  exists buf', accumulate_all op scale buf us = Some buf' /\
  forall m, holds m ptr buf' ->
  exists cs, reduce_expanded op pool ideal ptr (reduce_factor pool size tsize) size = Cmds cs /\
    ensures cs (fun m' => forall i, i < size ->
      m' (ptr, i) = Some (fold_left op (sent_to i us) (nth (N.to_nat i) xs d))) m.
Proof.
  intros As Co Id size Hs Hp Ht Hid F E. unfold expand in E.
  set (rep := if size =? 1 then 64 / tsize else 1) in *.
  fold size in E. unfold reduce_factor, replication_factor in *. fold rep in E |- *.
  replace (pool =? 1) with false in E by lia.
  assert (Hrep : 1 <= rep <= 32 /\ (rep <> 1 -> size = 1)).
  { unfold rep. destruct (N.eqb_spec size 1); [|lia].
    cbn [In] in Ht. destruct Ht as [<-|[<-|[<-|[]]]]; split; auto; vm_compute; split; discriminate. }
  assert (Hsr : size * rep < 2 ^ 32) by (destruct Hrep as (? & Hr); destruct (N.eq_dec rep 1) as [->|Nr]; [|rewrite (Hr Nr)]; lia).
  rewrite (u64_small (size * rep)) in E by lia.
  rewrite (u64_small (size * rep * pool)) in E by nia.
  destruct (N.ltb_spec (2 ^ 32 - 1) (size * rep * pool)) as [|Hns]; [discriminate|].
  rewrite u32_small in E by lia. injection E as <- <-.
  set (exp := rep * pool). replace (size * rep * pool) with (exp * size) in * by (unfold exp; lia).
  assert (exp < 2 ^ 32) by nia. rewrite (u32_small exp) by auto.
  assert (Hl : N.of_nat (length (xs ++ repeat ident (N.to_nat (exp * size) - length xs))) = exp * size).
  { rewrite app_length, repeat_length. assert (size <= exp * size) by nia. lia. }
  destruct (accumulate_ok op d As Co exp size rep pool us _ Hl eq_refl ltac:(lia) F) as (buf' & Ea & L & T).
  exists buf'. split; [exact Ea|]. intros m Hm.
  assert (2 * size <= exp * size) by (unfold exp; nia).
  destruct (reduce_expanded_ok op d buf' ptr exp size) with (workers := pool) (ideal := ideal) (m := m)
    as (cs & Ec & En); auto; try lia.
  exists cs. split; [exact Ec|]. eapply ensures_weaken; [|exact En].
  intros m' (K & _) i Hi. rewrite K by auto. f_equal. unfold folded.
  change (total op d exp size buf' i = fold_left op (sent_to i us) (nth (N.to_nat i) xs d)).
  rewrite T by auto. rewrite (total_expanded op ident d Id xs exp size) by auto. reflexivity.
Qed.
