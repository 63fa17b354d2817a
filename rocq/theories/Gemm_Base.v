From Verif Require Import Base Gemm_Model Gemm_Spec.
Local Open Scope N_scope.

(** ** Ranges *)
Lemma in_upto : forall x n, In x (upto n) <-> x < n.
Proof. intros x n. unfold upto. rewrite in_map_iff. split; [intros (y & <- & I); apply in_seq in I; lia|intros L; exists (N.to_nat x); split; [lia|apply in_seq; lia]]. Qed.
Lemma nodup_upto : forall n, NoDup (upto n).
Proof. intros n. unfold upto. apply FinFun.Injective_map_NoDup; [intros a b E; lia|apply seq_NoDup]. Qed.
Lemma upto_0 : upto 0 = [].
Proof. reflexivity. Qed.
Lemma upto_add : forall a b, upto (a + b) = upto a ++ map (N.add a) (upto b).
Proof.
  intros a b. unfold upto. rewrite N2Nat.inj_add, seq_app, map_app. f_equal. rewrite Nat.add_0_l, map_map.
  replace (seq (N.to_nat a) (N.to_nat b)) with (map (fun x => (N.to_nat a + x)%nat) (seq 0 (N.to_nat b))).
  - rewrite map_map. apply map_ext. intros x. lia.
  - assert (G : forall n s o, map (fun x => (s + x)%nat) (seq o n) = seq (s + o) n) by (induction n as [|n IH]; intros s o; [reflexivity|]; cbn [seq map]; rewrite IH, Nat.add_succ_r; reflexivity).
    rewrite G, Nat.add_0_r. reflexivity.
Qed.
Lemma upto_1 : upto 1 = [0].
Proof. reflexivity. Qed.
Lemma upto_succ : forall n, upto (N.succ n) = upto n ++ [n].
Proof. intros n. rewrite <- N.add_1_r, upto_add, upto_1. cbn [map]. rewrite N.add_0_r. reflexivity. Qed.
Lemma upto_mul : forall p e, upto (p * e) = flat_map (fun q => map (fun i => q * e + i) (upto e)) (upto p).
Proof.
  intros p e. induction p as [|p IH] using N.peano_ind; [reflexivity|].
  rewrite upto_succ, flat_map_app, <- IH. cbn [flat_map]. rewrite app_nil_r, N.mul_succ_l. apply upto_add.
Qed.
Lemma in_range : forall x a b, In x (range a b) <-> a <= x < b.
Proof.
  intros x a b. unfold range. rewrite in_map_iff. split.
  - intros (y & <- & I). apply in_upto in I. lia.
  - intros L. exists (x - a). split; [lia|]. apply in_upto. lia.
Qed.
Lemma nodup_range : forall a b, NoDup (range a b).
Proof. intros a b. unfold range. apply FinFun.Injective_map_NoDup; [intros x y E; lia|apply nodup_upto]. Qed.
Lemma ceil32_ok : forall x y, 0 < y -> x + y <= 2 ^ 32 -> ceil32 x y = (x + y - 1) / y.
Proof. intros x y Y L. unfold ceil32. rewrite u32_small; [reflexivity|]. change (2 ^ 32) with 4294967296 in *. lia. Qed.
(** the ceiling: *)
Lemma ceil_spec : forall x y i, 0 < y -> (i < (x + y - 1) / y <-> i * y < x).
Proof.
  intros x y i Y. assert (y <> 0) by lia. pose proof (N.div_mod (x + y - 1) y H) as D. pose proof (N.mod_lt (x + y - 1) y H) as L.
  revert D L. generalize ((x + y - 1) / y), ((x + y - 1) mod y). intros q r D L. split; intros B.
  - assert (i * y + y <= y * q) by nia. lia.
  - destruct (N.lt_ge_cases i q) as [|G]; [assumption|]. assert (y * q <= i * y) by nia. lia.
Qed.

(** ** Memory *)
Section M.
Context {X : Type}.
Lemma puts_app : forall (a b : list (N * X)) m, puts m (a ++ b) = puts (puts m a) b.
Proof. intros. unfold puts. apply fold_left_app. Qed.
Lemma puts_other : forall (l : list (N * X)) m x, (forall w, In w l -> fst w <> x) -> puts m l x = m x.
Proof.
  induction l as [|w l IH]; intros m x H; [reflexivity|]. change (puts m (w :: l)) with (puts (put m w) l). rewrite IH by (intros; apply H; right; assumption).
  unfold put. destruct (N.eqb_spec x (fst w)) as [E|E]; [|reflexivity]. exfalso. exact (H w (or_introl eq_refl) (eq_sym E)).
Qed.
Lemma puts_at : forall (l : list (N * X)) m x v, In x (map fst l) -> (forall w, In w l -> fst w = x -> snd w = v) -> puts m l x = v.
Proof.
  induction l as [|w l IH]; intros m x v I H; [destruct I|]. change (puts m (w :: l)) with (puts (put m w) l).
  destruct (in_dec N.eq_dec x (map fst l)) as [J|J].
  - apply IH; [exact J|]. intros u U. apply H. right. exact U.
  - rewrite puts_other by (intros u U E; apply J; rewrite <- E; apply in_map; exact U). destruct I as [E|I]; [|contradiction].
    unfold put. rewrite <- E, N.eqb_refl. apply H; [left; reflexivity|exact E].
Qed.
Lemma puts_map : forall (P : Type) (f : P -> N) (v : P -> X) L m p, In p L -> (forall q, In q L -> f q = f p -> v q = v p) ->
  puts m (map (fun q => (f q, v q)) L) (f p) = v p.
Proof.
  intros P f v L m p I H. apply puts_at.
  - rewrite map_map. cbn [fst]. apply in_map_iff. exists p. auto.
  - intros w W E. apply in_map_iff in W. destruct W as (q & <- & Q). cbn [fst snd] in *. auto.
Qed.
Lemma puts_map_other : forall (P : Type) (f : P -> N) (v : P -> X) L m x, (forall q, In q L -> f q <> x) -> puts m (map (fun q => (f q, v q)) L) x = m x.
Proof. intros P f v L m x H. apply puts_other. intros w W. apply in_map_iff in W. destruct W as (q & <- & Q). cbn. auto. Qed.
End M.
Lemma grid_map : forall (A B C : Type) (g : A -> B -> C) L1 L2, flat_map (fun a => map (g a) L2) L1 = map (fun p => g (fst p) (snd p)) (list_prod L1 L2).
Proof.
  intros A B C g L1 L2. induction L1 as [|a L1 IH]; [reflexivity|]. cbn [flat_map list_prod]. rewrite map_app, IH, map_map. reflexivity.
Qed.
Lemma flat_map_map : forall (A B C : Type) (f : A -> B) (g : B -> list C) l, flat_map g (map f l) = flat_map (fun a => g (f a)) l.
Proof. intros. induction l as [|a l IH]; [reflexivity|]. cbn. rewrite IH. reflexivity. Qed.
Lemma flat_map_ext' : forall (A B : Type) (f g : A -> list B) l, (forall a, In a l -> f a = g a) -> flat_map f l = flat_map g l.
Proof. intros A B f g l H. induction l as [|a l IH]; [reflexivity|]. cbn. rewrite (H a (or_introl eq_refl)), IH; [reflexivity|]. intros. apply H. right. assumption. Qed.
Lemma flat_map_flat_map : forall (A B C : Type) (f : A -> list B) (g : B -> list C) l, flat_map g (flat_map f l) = flat_map (fun a => flat_map g (f a)) l.
Proof. intros. induction l as [|a l IH]; [reflexivity|]. cbn. rewrite flat_map_app, IH. reflexivity. Qed.
Lemma map_flat_map : forall (A B C : Type) (f : A -> list B) (g : B -> C) l, map g (flat_map f l) = flat_map (fun a => map g (f a)) l.
Proof. intros. induction l as [|a l IH]; [reflexivity|]. cbn. rewrite map_app, IH. reflexivity. Qed.

(** ** Batches *)
Definition positive (l : list dim) : Prop := Forall (fun d => 0 < extent d) l.
Lemma product_pos : forall l, positive l -> 0 < product l.
Proof. induction 1 as [|d l P F IH]; cbn [product]; [reflexivity|]. apply N.mul_pos_pos; assumption. Qed.
Lemma position_lt : forall l idx, index_of l idx -> position l idx < product l.
Proof. induction 1 as [|d i l idx L F IH]; cbn [position product]; [reflexivity|]. nia. Qed.
Lemma div_mod_small : forall i e p, i < e -> (i + e * p) mod e = i /\ (i + e * p) / e = p.
Proof.
  intros i e p L. assert (e <> 0) by lia. split.
  - rewrite N.mul_comm, N.mod_add by assumption. apply N.mod_small, L.
  - rewrite N.mul_comm, N.div_add by assumption. rewrite N.div_small by exact L. reflexivity.
Qed.
Lemma decode_position : forall l idx, index_of l idx -> decode l (position l idx) = (a_offset l idx, b_offset l idx).
Proof.
  induction 1 as [|d i l idx L F IH]; [reflexivity|]. cbn [decode position a_offset b_offset]. destruct (div_mod_small i (extent d) (position l idx) L) as [-> ->].
  rewrite IH. reflexivity.
Qed.
Lemma points_decode : forall l, positive l -> points l = map (decode l) (upto (product l)).
Proof.
  induction 1 as [|d l P F IH]; [reflexivity|]. cbn [points product]. rewrite IH, (N.mul_comm (extent d)), upto_mul, map_flat_map, flat_map_map.
  apply flat_map_ext'. intros q _. rewrite map_map. apply map_ext_in. intros i I. apply in_upto in I. cbn [decode]. replace (q * extent d + i) with (i + extent d * q) by lia.
  destruct (div_mod_small i (extent d) q I) as [-> ->]. destruct (decode l q). reflexivity.
Qed.
Lemma positions : forall l b, positive l -> b < product l -> exists idx, index_of l idx /\ position l idx = b.
Proof.
  intros l b P. revert b. induction P as [|d l P F IH]; intros b L; cbn [product] in L.
  - exists []. split; [constructor|]. cbn [position]. lia.
  - assert (E0 : extent d <> 0) by lia. destruct (IH (b / extent d)) as (idx & I & E); [apply N.div_lt_upper_bound; [exact E0|lia]|].
    exists (b mod extent d :: idx). split; [constructor; [apply N.mod_lt; exact E0|exact I]|]. cbn [position]. rewrite E. pose proof (N.div_mod b (extent d) E0). lia.
Qed.
Lemma count_ok : forall l c, positive l -> 0 < c -> c * product l < 2 ^ 32 -> count c l = (c * product l, true).
Proof.
  intros l c P. revert c. induction P as [|d l P F IH]; intros c C L; cbn [count product] in *; [rewrite N.mul_1_r; reflexivity|].
  rewrite (proj2 (N.eqb_neq (extent d) 0)) by lia. pose proof (product_pos l F) as PP.
  assert (B : c * extent d < 2 ^ 32) by nia. rewrite (u32_small _ B). rewrite IH; [f_equal; lia|nia|lia].
Qed.
