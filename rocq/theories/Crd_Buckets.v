(** The buckets of an array: table, slices, instances. *)
From Verif Require Import Base Par_Model Mkperm_Spec Mkperm_Sort Registry_Model Registry_Spec Registry_Proofs
  Crd_Model Crd_Spec.
Local Open Scope N_scope.
#[local] Ltac Zify.zify_post_hook ::= idtac.

Section ARRAY.
Variable xs : list N.
Variable B : N.
Let n := N.of_nat (length xs).
Let f (i : N) : N := nth (N.to_nat i) xs 0.
Let L := range_lt 0 n.

Lemma bucket_sorted_eq : bucket_sorted xs B 0 n = sorted f B L.
Proof. reflexivity. Qed.

Lemma positions_eq id : positions xs id = filter (fun i => f i =? id) L.
Proof. reflexivity. Qed.

Lemma positions_length id : N.of_nat (length (positions xs id)) = cnt f id L.
Proof. reflexivity. Qed.

Definition entry (b : N) : list ibucket :=
  if cnt f b L =? 0 then [] else [(b, clt f b L, cnt f b L)].

Lemma quads_table_aux (l : list N) :
  quads (flat_map (fun b => if cnt f b L =? 0 then [] else [b; clt f b L; cnt f b L; 0]) l) = flat_map entry l.
Proof.
  induction l as [|b l IH]; cbn [flat_map]; [reflexivity|]. unfold entry at 1.
  destruct (cnt f b L =? 0); [exact IH|]. cbn [app quads]. now rewrite IH.
Qed.

Lemma quads_table : quads (bucket_table xs B 0 n) = flat_map entry (range_lt 0 B).
Proof. apply quads_table_aux. Qed.

Lemma table_in e : In e (quads (bucket_table xs B 0 n)) <->
  exists b, In b (range_lt 0 B) /\ cnt f b L <> 0 /\ e = (b, clt f b L, cnt f b L).
Proof.
  rewrite quads_table, in_flat_map. split.
  - intros (b & I & E). exists b. unfold entry in E. destruct (N.eqb_spec (cnt f b L) 0); [destruct E|].
    destruct E as [<-|[]]. auto.
  - intros (b & I & NZ & ->). exists b. split; [exact I|]. unfold entry.
    destruct (N.eqb_spec (cnt f b L) 0); [congruence|now left].
Qed.

Lemma table_ids : NoDup (map (fun e : ibucket => fst (fst e)) (quads (bucket_table xs B 0 n))).
Proof.
  rewrite quads_table. pose proof (range_NoDup 0 B) as ND.
  assert (I0 : forall l x, In x (map (fun e : ibucket => fst (fst e)) (flat_map entry l)) -> In x l).
  { intros l x I. apply in_map_iff in I as (e & <- & I). apply in_flat_map in I as (b & I & E).
    unfold entry in E. destruct (cnt f b L =? 0); [destruct E|]. destruct E as [<-|[]]. exact I. }
  induction (range_lt 0 B) as [|b l IH]; cbn [flat_map]; [constructor|].
  inversion ND as [|? ? N1 N2]; subst. rewrite map_app. unfold entry at 1.
  destruct (cnt f b L =? 0); cbn [app map]; [auto|]. constructor; [|auto]. intros X. apply N1. apply (I0 _ _ X).
Qed.

Lemma slice id : id < B -> sub (clt f id L) (cnt f id L) (bucket_sorted xs B 0 n) = positions xs id.
Proof.
  intros H. rewrite bucket_sorted_eq, positions_eq. destruct (sorted_prefix f (id + 1) B L ltac:(lia)) as [ys ->].
  rewrite sorted_succ, <- app_assoc. unfold sub.
  rewrite <- (sorted_length f id L), Nat2N.id, skipn_app, skipn_all2, Nat.sub_diag by lia. cbn [app skipn].
  unfold cnt. rewrite Nat2N.id, firstn_app, firstn_all, Nat.sub_diag. cbn [firstn]. apply app_nil_r.
Qed.

Lemma slice_bound id : id < B -> clt f id L + cnt f id L <= N.of_nat (length (bucket_sorted xs B 0 n)).
Proof.
  intros H. rewrite <- clt_succ, bucket_sorted_eq, sorted_length. apply clt_mono. lia.
Qed.

Lemma slice_apart a b : a <> b ->
  clt f a L + cnt f a L <= clt f b L \/ clt f b L + cnt f b L <= clt f a L.
Proof.
  intros H. rewrite <- !clt_succ. destruct (N.lt_total a b) as [Q|[Q|Q]]; [left|congruence|right]; apply clt_mono; lia.
Qed.

Lemma in_L i : In i L <-> i < n.
Proof. unfold L, range_lt. rewrite in_map_iff. split.
  - intros (k & <- & I). apply in_seq in I. lia.
  - intros H. exists (N.to_nat i). split; [lia|]. apply in_seq. lia.
Qed.

Lemma table_all x : Forall (fun y => y < B) xs -> In x xs ->
  In x (map (fun e : ibucket => fst (fst e)) (quads (bucket_table xs B 0 n))).
Proof.
  intros F I. apply in_map_iff. exists (x, clt f x L, cnt f x L). split; [reflexivity|]. apply table_in.
  exists x. rewrite Forall_forall in F. split; [|split; [|reflexivity]].
  - unfold range_lt. apply in_map_iff. exists (N.to_nat x). pose proof (F _ I). split; [lia|]. apply in_seq. lia.
  - apply In_nth with (d := 0) in I as (k & K & E). unfold cnt.
    assert (X : In (N.of_nat k) (filter (fun i => f i =? x) L)).
    { apply filter_In. split; [apply in_L; unfold n; lia|]. unfold f. rewrite Nat2N.id. apply N.eqb_eq. exact E. }
    destruct (filter (fun i => f i =? x) L); [destruct X|cbn; lia].
Qed.
End ARRAY.

(** * Instances *)
Definition instance_of (r : reg) (t : target) (id : N) : out N :=
  match t with
  | Upto _ => Ret 0
  | Domain k => match reg_ptr r k id with
                | Some (OPtr q) => Ret q
                | Some _ => Raise
                | None => UB
                end
  end.

Definition bound_of (r : reg) (t : target) : out N :=
  match t with
  | Upto n => Ret n
  | Domain k => match reg_bound r k with Some (OId n) => Ret n | _ => UB end
  end.

Lemma bound_ok n r s t : RI n n r s -> n + 1 < 2 ^ 32 - 1 ->
  exists m, bound_of r t = Ret m /\ limit s t m /\
    forall id, id <= m -> exists q, instance_of r t id = Ret q /\ instance s t id q.
Proof.
  intros HR Hn. destruct t as [k|m]; cbn [bound_of limit instance_of instance].
  2:{ exists m. split; [reflexivity|]. split; [reflexivity|]. intros id _. exists 0. auto. }
  destruct (reg_step_ok n n r s (Bound k) HR Hn ltac:(lia) eq_refl) as (r' & x & s' & A & S1 & _).
  cbn [reg_step] in A. destruct (reg_bound r k) as [y|] eqn:EB; [|discriminate]. cbn [bind] in A. injection A as <- <-.
  inversion S1 as [| | | | | | | | |? ? m LA| | | | | | ]; subst.
  exists m. split; [reflexivity|]. split; [exact LA|]. intros id Hid.
  destruct (reg_step_ok n n r s' (PtrOf k id) HR Hn ltac:(lia) eq_refl) as (r2 & z & s2 & A2 & S2 & _).
  cbn [reg_step] in A2. destruct (reg_ptr r k id) as [w|] eqn:EP; [|discriminate]. cbn [bind] in A2. injection A2 as <- <-.
  inversion S2 as [| | | | | | | | | | |? ? ? p I|? ? ? o NU O| | |]; subst.
  - exists p. auto.
  - destruct O as [->|[N0 ->]]; [exists 0; auto|]. exfalso.
    unfold reg_ptr in EP. destruct (N.eqb_spec id 0); [congruence|].
    unfold reg_bound in EB. destruct (find_key k (ids r)) as [d|] eqn:FK; [|discriminate].
    apply find_key_In in FK. destruct (dom_get_some _ _ _ _ _ _ HR FK) as [D HD]. rewrite HD in *. cbn [bind] in *.
    injection EB as EB. destruct (ri_dom HR d D HD) as [l HDI]. pose proof (di_bnd _ _ _ HDI).
    destruct (N.leb_spec (N.of_nat (length (d_fwd D))) (id - 1)); [lia|].
    destruct (nth_error (d_fwd D) (N.to_nat (id - 1))); discriminate.
Qed.
