(** What assembly assigns to the variables of a kernel. *)
From Verif Require Import Base Asm_Model Asm_Spec.
Local Open Scope N_scope.

Definition regs0 (b : backend) : N := match b with CUDA => 4 | _ => 1 end.
Definition params0 (b : backend) : nat := match b with LLVM => 3 | _ => 1 end.

(** Parameter of a variable in the list [ps], buffer in the list [bs] *)
Definition slot_ok (b : backend) (w size : N) (ps : list N) (bs : list (N * N * N)) (s : slot) : Prop :=
  let v := s_var s in
  let at_off p := exists i, s_off s = N.of_nat i * 8 /\ (params0 b <= i)%nat /\ nth_error ps i = Some p in
  match s_ptype s with
  | Input => (exists data, v_kind v = KEval data /\ at_off data) \/
             (exists bits, v_kind v = KLit bits /\ v_type v = T_Pointer /\ at_off bits /\
                           ~ (v_out v = true /\ v_size v = size))
  | Output => is_output size v /\ exists p, In (v_id v, out_bytes b w size (v_type v), p) bs /\ at_off p
  | Register => is_eval v = false /\ ~ is_output size v /\ (is_lit v = true -> v_type v <> T_Pointer)
  end.

Lemma slot_ok_app b w size ps qs bs cs s :
  slot_ok b w size ps bs s -> slot_ok b w size (ps ++ qs) (bs ++ cs) s.
Proof.
  assert (K : forall p, (exists i, s_off s = N.of_nat i * 8 /\ (params0 b <= i)%nat /\ nth_error ps i = Some p) ->
                        exists i, s_off s = N.of_nat i * 8 /\ (params0 b <= i)%nat /\ nth_error (ps ++ qs) i = Some p).
  { intros p (i & A & B & C). exists i. repeat split; trivial. rewrite nth_error_app1; trivial.
    apply nth_error_Some. congruence. }
  unfold slot_ok. destruct (s_ptype s).
  - intros [(d & A & B)|(d & A & B & C & D)]; [left|right]; eauto.
    exists d. repeat split; auto.
  - intros (A & p & B & C). split; [exact A|]. exists p. split; [apply in_or_app; now left|auto].
  - trivial.
Qed.

Record placed (b : backend) (w size : N) (g : list var) (s : state) : Prop := {
  pl_vars : map s_var (a_slots s) = g;
  pl_regs : a_regs s = regs0 b + N.of_nat (length g);
  pl_reg : forall j x, nth_error (a_slots s) j = Some x -> s_reg x = regs0 b + N.of_nat j;
  pl_len : (params0 b <= length (a_params s) <= params0 b + length g)%nat;
  pl_ok : forall x, In x (a_slots s) -> slot_ok b w size (a_params s) (a_bufs s) x;
  pl_bufs : forall e, In e (a_bufs s) -> exists v, In v g /\ is_output size v /\
              fst (fst e) = v_id v /\ snd (fst e) = out_bytes b w size (v_type v);
  pl_nodup : NoDup (map v_id g) -> NoDup (map (fun e => fst (fst e)) (a_bufs s));
  pl_size : Forall (fun v => v_size v = 1 \/ v_size v = size) g
}.

Lemma nth_error_snoc {A} (l : list A) x j y :
  nth_error (l ++ [x]) j = Some y -> nth_error l j = Some y \/ (j = length l /\ y = x).
Proof.
  intros H. destruct (Nat.lt_ge_cases j (length l)).
  - left. now rewrite nth_error_app1 in H.
  - right. rewrite nth_error_app2 in H by lia. destruct (j - length l)%nat as [|k] eqn:E.
    + cbn in H. split; [lia|congruence].
    + cbn in H. destruct k; discriminate.
Qed.

Lemma place_ok b w size malloc g s v s' :
  N.of_nat (length g) + 8 < 2 ^ 28 -> placed b w size g s ->
  place b w size malloc s v = Done s' -> placed b w size (g ++ [v]) s'.
Proof.
  intros FEW P H. unfold place in H.
  destruct (negb ((v_size v =? 1) || (v_size v =? size))) eqn:EZ; [discriminate|].
  assert (SZ : v_size v = 1 \/ v_size v = size)
    by (apply negb_false_iff, orb_true_iff in EZ; rewrite !N.eqb_eq in EZ; exact EZ).
  set (off := u32 (N.of_nat (length (a_params s)) * 8)) in *.
  assert (OFF : off = N.of_nat (length (a_params s)) * 8).
  { unfold off, u32. apply N.mod_small. pose proof (pl_len _ _ _ _ _ P).
    assert (params0 b <= 3)%nat by (destruct b; cbn; lia). lia. }
  assert (K : forall pt o param buf,
    s' = add_slot s v pt o param buf -> (length param <= 1)%nat ->
    (forall e, In e buf -> is_output size v /\ fst (fst e) = v_id v /\
                           snd (fst e) = out_bytes b w size (v_type v)) -> (length buf <= 1)%nat ->
    slot_ok b w size (a_params s ++ map fst param) (a_bufs s ++ buf)
            {| s_var := v; s_ptype := pt; s_off := o; s_reg := a_regs s |} ->
    placed b w size (g ++ [v]) s').
  { intros pt o param buf -> LP HB LB OK. constructor; cbn [add_slot a_params a_write a_regs a_slots a_bufs].
    - rewrite map_app, (pl_vars _ _ _ _ _ P). reflexivity.
    - rewrite (pl_regs _ _ _ _ _ P), app_length. cbn [length]. unfold u32.
      rewrite N.mod_small by (destruct b; cbn [regs0]; lia). lia.
    - intros j x Hx. apply nth_error_snoc in Hx as [Hx|[-> ->]]; [now apply (pl_reg _ _ _ _ _ P)|].
      cbn [s_reg]. rewrite (pl_regs _ _ _ _ _ P). f_equal. f_equal.
      rewrite <- (pl_vars _ _ _ _ _ P). now rewrite map_length.
    - rewrite !app_length, map_length. cbn [length]. pose proof (pl_len _ _ _ _ _ P). lia.
    - intros x Hx. apply in_app_or in Hx as [Hx|[<-|[]]].
      + apply slot_ok_app. now apply (pl_ok _ _ _ _ _ P).
      + exact OK.
    - intros e He. apply in_app_or in He as [He|He].
      + destruct (pl_bufs _ _ _ _ _ P e He) as (u & A & B). exists u. split; [apply in_or_app; now left|exact B].
      + destruct (HB e He) as (A & B & C). exists v. split; [apply in_or_app; right; now left|]. auto.
    - intros ND. rewrite map_app in ND. cbn [map] in ND.
      apply NoDup_remove in ND as [ND NI]. rewrite app_nil_r in ND, NI.
      rewrite map_app. destruct buf as [|e [|? ?]]; [|cbn|cbn in LB; lia].
      + rewrite app_nil_r. now apply (pl_nodup _ _ _ _ _ P).
      + apply NoDup_Add with (a := fst (fst e)) (l := map (fun e => fst (fst e)) (a_bufs s)).
        * rewrite <- (app_nil_r (map _ (a_bufs s))) at 1. apply Add_app.
        * split; [now apply (pl_nodup _ _ _ _ _ P)|].
          intros IN. apply in_map_iff in IN as (e' & E & IN).
          destruct (pl_bufs _ _ _ _ _ P e' IN) as (u & A & _ & B & _).
          apply NI. destruct (HB e (or_introl eq_refl)) as (_ & C & _). rewrite <- C, <- E, B.
          apply in_map. exact A.
    - apply Forall_app. split; [exact (pl_size _ _ _ _ _ P)|]. now constructor. }
  assert (AT : forall p, exists i, off = N.of_nat i * 8 /\ (params0 b <= i)%nat /\
             nth_error (a_params s ++ [p]) i = Some p).
  { intros p. exists (length (a_params s)). split; [exact OFF|]. split; [apply (pl_len _ _ _ _ _ P)|].
    rewrite nth_error_app2, Nat.sub_diag by lia. reflexivity. }
  assert (OUT : is_eval v = false -> v_out v && (v_size v =? size) = true ->
    match malloc (length (a_bufs s)) (out_bytes b w size (v_type v)) with
    | None => OutOfMemory
    | Some p => Done (add_slot s v Output off [(p, true)] [(v_id v, out_bytes b w size (v_type v), p)])
    end = Done s' -> placed b w size (g ++ [v]) s').
  { intros NE O M. clear H. destruct (malloc _ _) as [p|]; [|discriminate]. injection M as H1.
    apply andb_true_iff in O as [O1 O2]. apply N.eqb_eq in O2.
    assert (IO : is_output size v) by (repeat split; assumption).
    symmetry in H1. refine (K _ _ _ _ H1 _ _ _ _); cbn [length]; try lia.
    - intros e [<-|[]]. auto.
    - cbn [slot_ok s_ptype s_var s_off map fst]. split; [exact IO|]. exists p. split; [|apply AT].
      apply in_or_app. right. now left. }
  assert (REG : is_eval v = false -> v_out v && (v_size v =? size) = false ->
    (is_lit v = true -> v_type v <> T_Pointer) ->
    Done (add_slot s v Register 65535 [] []) = Done s' -> placed b w size (g ++ [v]) s').
  { intros NE O L M. clear H. injection M as H1. symmetry in H1. refine (K _ _ _ _ H1 _ _ _ _); cbn [length]; try lia.
    - intros e [].
    - cbn [slot_ok s_ptype s_var]. split; [exact NE|]. split; [|exact L].
      intros (A & B & _). rewrite A, (proj2 (N.eqb_eq _ _) B) in O. discriminate. }
  destruct (v_kind v) as [data|bits| |c|op d c] eqn:EK.
  - injection H as H1. symmetry in H1. refine (K _ _ _ _ H1 _ _ _ _); cbn [length]; try lia.
    + intros e [].
    + cbn [slot_ok s_ptype s_var s_off map fst]. left. exists data. split; [exact EK|]. apply AT.
  - destruct (v_out v && (v_size v =? size)) eqn:O.
    + apply OUT; trivial. unfold is_eval. now rewrite EK.
    + destruct (v_type v =? T_Pointer) eqn:ET.
      * injection H as H1. symmetry in H1. refine (K _ _ _ _ H1 _ _ _ _); cbn [length]; try lia.
        -- intros e [].
        -- cbn [slot_ok s_ptype s_var s_off map fst]. right. exists bits. split; [exact EK|].
           split; [now apply N.eqb_eq|]. split; [apply AT|].
           intros [A B]. rewrite A, (proj2 (N.eqb_eq _ _) B) in O. discriminate.
      * apply REG; trivial. { unfold is_eval. now rewrite EK. } intros _. now apply N.eqb_neq.
  - destruct (v_out v && (v_size v =? size)) eqn:O.
    + apply OUT; trivial. unfold is_eval. now rewrite EK.
    + apply REG; trivial; [unfold is_eval; now rewrite EK|]. unfold is_lit. rewrite EK. discriminate.
  - destruct (v_out v && (v_size v =? size)) eqn:O.
    + apply OUT; trivial. unfold is_eval. now rewrite EK.
    + apply REG; trivial; [unfold is_eval; now rewrite EK|]. unfold is_lit. rewrite EK. discriminate.
  - destruct (v_out v && (v_size v =? size)) eqn:O.
    + apply OUT; trivial. unfold is_eval. now rewrite EK.
    + apply REG; trivial; [unfold is_eval; now rewrite EK|]. unfold is_lit. rewrite EK. discriminate.
Qed.

Lemma place_all_ok b w size malloc : forall g g0 s s',
  N.of_nat (length (g0 ++ g)) + 8 < 2 ^ 28 -> placed b w size g0 s ->
  place_all b w size malloc s g = Done s' -> placed b w size (g0 ++ g) s'.
Proof.
  induction g as [|v g IH]; intros g0 s s' FEW P H.
  - inversion H. subst. now rewrite app_nil_r.
  - cbn [place_all] in H. destruct (place b w size malloc s v) as [s1| |] eqn:E; try discriminate.
    replace (g0 ++ v :: g) with ((g0 ++ [v]) ++ g) in * by (now rewrite <- app_assoc).
    apply (IH _ s1); trivial. apply (place_ok b w size malloc g0 s); trivial.
    rewrite !app_length in FEW. cbn [length] in FEW. lia.
Qed.

Lemma initial_placed b w size : placed b w size [] (initial b size).
Proof.
  constructor; destruct b; cbn; try lia; try reflexivity; try (now intros [|] ?);
    try (intros ? []); try constructor; trivial.
Qed.

(** The assembled kernel *)
Record built (b : backend) (w size cb : N) (g : list var) (k : kernel) : Prop := {
  bu_vars : map s_var (k_slots k) = g;
  bu_reg : forall j x, nth_error (k_slots k) j = Some x -> s_reg x = regs0 b + N.of_nat j;
  bu_ok : forall x, In x (k_slots k) -> slot_ok b w size (k_params k) (k_bufs k) x;
  bu_bufs : forall e, In e (k_bufs k) -> exists v, In v g /\ is_output size v /\
              fst (fst e) = v_id v /\ snd (fst e) = out_bytes b w size (v_type v);
  bu_nodup : NoDup (map v_id g) -> NoDup (map (fun e => fst (fst e)) (k_bufs k));
  bu_base : match k_base k with
            | Some (r, p) => r = regs0 b + N.of_nat (length g) /\ needs_calls g = true /\
                k_regs k = r + 1 /\ (params0 b <= N.to_nat p)%nat /\ p < 2 ^ 28 /\
                nth_error (k_params k) (N.to_nat p) = Some cb
            | None => needs_calls g = false /\ k_regs k = regs0 b + N.of_nat (length g)
            end;
  bu_len : (params0 b <= length (k_params k) <= params0 b + length g + 1)%nat
}.

Lemma allocate_built b w size malloc cb g k :
  N.of_nat (length g) + 8 < 2 ^ 28 -> allocate b w size malloc cb g = Done k ->
  built b w size cb g k.
Proof.
  intros FEW H. unfold allocate in H.
  destruct (place_all b w size malloc (initial b size) g) as [s| |] eqn:E; try discriminate.
  pose proof (place_all_ok b w size malloc g [] _ s FEW (initial_placed b w size) E) as P. cbn [app] in P.
  inversion H. subst k. clear H. unfold finish.
  destruct (needs_calls g) eqn:NC.
  - constructor; cbn [k_slots k_params k_bufs k_base k_regs]; try apply P.
    + intros x Hx. rewrite <- (app_nil_r (a_bufs s)). apply slot_ok_app. now apply (pl_ok _ _ _ _ _ P).
    + pose proof (pl_len _ _ _ _ _ P) as L. pose proof (pl_regs _ _ _ _ _ P) as R.
      assert (params0 b <= 3)%nat by (destruct b; cbn; lia).
      assert (U : u32 (N.of_nat (length (a_params s))) = N.of_nat (length (a_params s)))
        by (unfold u32; apply N.mod_small; lia).
      rewrite U. repeat split; trivial; try lia.
      * rewrite R. unfold u32. apply N.mod_small. destruct b; cbn [regs0]; lia.
      * rewrite Nat2N.id, nth_error_app2, Nat.sub_diag by lia. reflexivity.
    + rewrite app_length. cbn [length]. pose proof (pl_len _ _ _ _ _ P). lia.
  - constructor; cbn [k_slots k_params k_bufs k_base k_regs]; try apply P.
    + split; [exact NC|]. apply P.
    + pose proof (pl_len _ _ _ _ _ P). lia.
Qed.

(** The parameters that precede the ones of the variables *)
Lemma place_all_prefix b w size malloc : forall g s s',
  place_all b w size malloc s g = Done s' -> exists l, a_params s' = a_params s ++ l.
Proof.
  assert (ADD : forall s v p o q bf, exists l, a_params (add_slot s v p o q bf) = a_params s ++ l).
  { intros. cbn [add_slot a_params]. eauto. }
  assert (ONE : forall v s s', place b w size malloc s v = Done s' -> exists l, a_params s' = a_params s ++ l).
  { intros v s s' H. unfold place in H.
    destruct (negb ((v_size v =? 1) || (v_size v =? size))); [discriminate|].
    destruct (v_kind v); try (injection H as <-; apply ADD);
      (destruct (v_out v && (v_size v =? size));
       [destruct (malloc (length (a_bufs s)) (out_bytes b w size (v_type v))); [injection H as <-; apply ADD|discriminate]|]);
      try (injection H as <-; apply ADD).
    destruct (v_type v =? T_Pointer); injection H as <-; apply ADD. }
  induction g as [|v g IH]; intros s s' H; cbn [place_all] in H.
  - injection H as <-. exists []. now rewrite app_nil_r.
  - destruct (place b w size malloc s v) as [s1| |] eqn:E; try discriminate.
    destruct (ONE _ _ _ E) as [l1 L1]. destruct (IH _ _ H) as [l2 L2].
    exists (l1 ++ l2). now rewrite L2, L1, app_assoc.
Qed.

Lemma allocate_first b w size malloc cb g k : b <> LLVM ->
  allocate b w size malloc cb g = Done k -> nth 0 (k_params k) 0 = size.
Proof.
  intros NB H. unfold allocate in H.
  destruct (place_all b w size malloc (initial b size) g) as [s| |] eqn:E; try discriminate.
  injection H as <-. destruct (place_all_prefix _ _ _ _ _ _ _ E) as [l L].
  unfold finish. destruct (needs_calls g); cbn [k_params]; rewrite L; destruct b; try congruence; reflexivity.
Qed.
