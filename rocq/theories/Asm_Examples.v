(** Concrete kernels, and the theorems of C70 assembled from their parts *)
From Verif Require Import Base Asm_Model Asm_Spec Asm_Place Asm_Proofs Asm_Text.
Local Open Scope N_scope.

Lemma code_length b w size malloc cb g k : N.of_nat (length g) + 8 < 2 ^ 28 ->
  allocate b w size malloc cb g = Done k -> S (length (t_code (generate b w k))) = (length g + 2)%nat.
Proof.
  intros F H. apply allocate_built in H; [|exact F]. unfold generate. cbn [t_code length].
  rewrite map_length, <- (map_length s_var), (bu_vars _ _ _ _ _ _ H). lia.
Qed.

Lemma llvm_launch : forall sem size cb g m0 w malloc k desired n cores,
  well_formed LLVM size g -> aligned_ok g w ->
  allocate LLVM w size malloc cb g = Done k ->
  buffers_ok LLVM m0 w (k_bufs k) -> inputs_ok sem LLVM size cb g m0 w (k_bufs k) ->
  defined sem LLVM size cb g m0 w ->
  desired = n * w -> 0 < desired -> size + desired <= 2 ^ 32 -> size + 2 * cores * w + w <= 2 ^ 32 ->
  exists units, llvm_units w desired cores size = Some units /\
  forall picks, exists s,
    run sem (generate LLVM w k) w (k_params k) (launched m0 units) picks = Ok s /\
    (finished s = true -> launched_ok sem LLVM size cb g m0 w (k_bufs k) (m_mem s) (m_log s)) /\
    ((forall i u, nth_error units i = Some u ->
        (length (fst u) * (length g + 2) <= count_occ Nat.eq_dec picks i)%nat) -> finished s = true).
Proof.
  intros sem size cb g m0 w malloc k desired n cores WF AL A BO IO DE D1 D2 D3 D4.
  pose proof (wf_size _ _ _ WF) as SZ. pose proof (wf_few _ _ _ WF) as FEW.
  destruct (al_width _ _ AL) as (e & W & E6).
  assert (W64 : 0 < w <= 64).
  { subst w. pose proof (N.pow_nonzero 2 e ltac:(lia)). pose proof (N.pow_le_mono_r 2 e 6 ltac:(lia) E6).
    change (2 ^ 6) with 64 in *. lia. }
  destruct (llvm_units_ok w desired cores size n ltac:(lia) D1 D2 ltac:(lia) D3 D4) as (units & U1 & U2).
  exists units. split; [exact U1|]. intros picks.
  pose proof (allocate_built _ _ _ _ _ _ _ FEW A) as BU.
  destruct (launch_safe sem LLVM size cb g m0 w k WF BU BO IO DE AL units U2 picks) as (s & R & L).
  exists s. split; [exact R|]. split; [exact L|]. intros F. eapply fair_finishes; [exact R|].
  intros i u U. rewrite (code_length _ _ _ _ _ _ _ FEW A). now apply F.
Qed.

Lemma gpu_launch : forall sem b size cb g m0 malloc k threads, b <> LLVM ->
  well_formed b size g -> allocate b 1 size malloc cb g = Done k ->
  buffers_ok b m0 1 (k_bufs k) -> inputs_ok sem b size cb g m0 1 (k_bufs k) ->
  defined sem b size cb g m0 1 ->
  NoDup threads -> (forall i, i < size -> In i threads) ->
  forall picks, exists s,
    run sem (generate b 1 k) 1 (k_params k) (launched m0 (gpu_units (k_params k) threads)) picks = Ok s /\
    (finished s = true -> launched_ok sem b size cb g m0 1 (k_bufs k) (m_mem s) (m_log s)) /\
    ((forall i u, nth_error (gpu_units (k_params k) threads) i = Some u ->
        (length (fst u) * (length g + 2) <= count_occ Nat.eq_dec picks i)%nat) -> finished s = true).
Proof.
  intros sem b size cb g m0 malloc k threads NB WF A BO IO DE ND COV picks.
  pose proof (wf_size _ _ _ WF) as SZ. pose proof (wf_few _ _ _ WF) as FEW.
  pose proof (allocate_built _ _ _ _ _ _ _ FEW A) as BU.
  assert (AL : match b with LLVM => aligned_ok g 1 | _ => 1 = 1 end) by (destruct b; [congruence|reflexivity|reflexivity]).
  pose proof (gpu_units_ok b size (k_params k) threads NB SZ (allocate_first _ _ _ _ _ _ _ NB A) ND COV) as U2.
  destruct (launch_safe sem b size cb g m0 1 k WF BU BO IO DE AL _ U2 picks) as (s & R & L).
  exists s. split; [exact R|]. split; [exact L|]. intros F. eapply fair_finishes; [exact R|].
  intros i u U. rewrite (code_length _ _ _ _ _ _ _ FEW A). now apply F.
Qed.

Lemma assembles : forall b w size malloc cb g,
  match allocate b w size malloc cb g with
  | Done _ => forall v, In v g -> v_size v = 1 \/ v_size v = size
  | Fails => exists v, In v g /\ v_size v <> 1 /\ v_size v <> size
  | OutOfMemory => exists i bytes, malloc i bytes = None
  end.
Proof.
  intros b w size malloc cb g. unfold allocate.
  assert (K : forall s, match place_all b w size malloc s g with
    | Done _ => forall v, In v g -> v_size v = 1 \/ v_size v = size
    | Fails => exists v, In v g /\ v_size v <> 1 /\ v_size v <> size
    | OutOfMemory => exists i bytes, malloc i bytes = None end).
  { induction g as [|v g IH]; intros s; cbn [place_all]; [intros v []|].
    assert (P : match place b w size malloc s v with
      | Done _ => v_size v = 1 \/ v_size v = size
      | Fails => v_size v <> 1 /\ v_size v <> size
      | OutOfMemory => exists i bytes, malloc i bytes = None end).
    { unfold place. destruct ((v_size v =? 1) || (v_size v =? size)) eqn:Z; cbn [negb].
      - assert (ZZ : v_size v = 1 \/ v_size v = size) by lia.
        destruct (v_kind v); trivial; destruct (v_out v && (v_size v =? size));
          try (match goal with |- context [malloc ?i ?n] => destruct (malloc i n) eqn:M end; trivial; eauto);
          try destruct (v_type v =? T_Pointer); trivial.
      - lia. }
    destruct (place b w size malloc s v) as [s'| |].
    - specialize (IH s'). destruct (place_all b w size malloc s' g).
      + intros u [<-|U]; auto.
      + destruct IH as (u & U & Q). exists u. split; [now right|exact Q].
      + exact IH.
    - exists v. split; [now left|exact P].
    - exact P. }
  specialize (K (initial b size)). destruct (place_all b w size malloc (initial b size) g); exact K.
Qed.

Lemma text_shared : forall b w size1 size2 cb1 cb2 malloc1 malloc2 f g1 g2 k1 k2,
  (forall x y, f x = f y -> x = y) -> well_formed b size1 g1 -> 0 < size2 ->
  Forall2 (same_shape size1 size2 f) g1 g2 ->
  allocate b w size1 malloc1 cb1 g1 = Done k1 -> allocate b w size2 malloc2 cb2 g2 = Done k2 ->
  generate b w k1 = generate b w k2 /\ k_write k1 = k_write k2.
Proof.
  intros b w size1 size2 cb1 cb2 malloc1 malloc2 f g1 g2 k1 k2 INJ WF Z F A1 A2.
  assert (P : forall v, In v g1 -> v_type v = T_Pointer -> v_out v = false /\ v_size v = 1).
  { intros v V TP. destruct (wf_pointer _ _ _ WF v V TP) as (A & B & _). auto. }
  pose proof (wf_size _ _ _ WF). assert (H0 : 0 < size1) by lia.
  exact (same_text b w size1 size2 cb1 cb2 malloc1 malloc2 f INJ H0 Z g1 g2 k1 k2 F P A1 A2).
Qed.

Lemma cache_own : forall hash ts,
  (forall t t', In t ts -> In t' ts -> hash t = hash t' -> t = t') ->
  snd (run_all hash {| q_kernels := []; q_hits := 0; q_misses := 0 |} ts) = ts.
Proof.
  intros hash ts INJ. apply run_all_own; [|intros e []].
  intros t t' A [C|[]]. now apply INJ.
Qed.

Lemma run_all_has hash : forall ts q,
  (forall t t', In t ts -> In t' ts \/ In t' (map snd (q_kernels q)) -> hash t = hash t' -> t = t') ->
  (forall e, In e (q_kernels q) -> fst e = hash (snd e)) ->
  forall t, In t ts \/ In t (map snd (q_kernels q)) ->
  In t (map snd (q_kernels (fst (run_all hash q ts)))).
Proof.
  induction ts as [|t r IH]; intros q INJ OK u U; cbn [run_all].
  - destruct U as [[]|U]. exact U.
  - unfold run_cached. destruct (find (fun e => fst e =? hash t) (q_kernels q)) as [e|] eqn:F.
    + apply find_some in F as [F1 F2]. apply N.eqb_eq in F2.
      assert (t = snd e).
      { apply INJ; [now left|right; now apply in_map|]. rewrite <- (OK e F1). congruence. }
      specialize (IH {| q_kernels := q_kernels q; q_hits := q_hits q + 1; q_misses := q_misses q |}).
      destruct (run_all hash _ r) as [q2 l]. cbn [fst q_kernels] in *. apply IH; [|exact OK|].
      * intros a c A C. apply INJ; [now right|destruct C; [left; now right|now right]].
      * destruct U as [[<-|U]|U]; auto. right. subst t. now apply in_map.
    + specialize (IH {| q_kernels := (hash t, t) :: q_kernels q; q_hits := q_hits q; q_misses := q_misses q + 1 |}).
      destruct (run_all hash _ r) as [q2 l]. cbn [fst q_kernels map snd] in *. apply IH.
      * intros a c A C. apply INJ; [now right|].
        destruct C as [C|[<-|C]]; [left; now right|left; now left|now right].
      * intros e [<-|E]; [reflexivity|auto].
      * destruct U as [[<-|U]|U]; cbn; auto.
Qed.

Lemma cache_once : forall hash ts,
  (forall t t', In t ts -> In t' ts -> hash t = hash t' -> t = t') ->
  let q := fst (run_all hash {| q_kernels := []; q_hits := 0; q_misses := 0 |} ts) in
  exists distinct, NoDup distinct /\ (forall t, In t distinct <-> In t ts) /\
    q_misses q = N.of_nat (length distinct) /\
    q_hits q + q_misses q = N.of_nat (length ts).
Proof.
  intros hash ts INJ q.
  destruct (run_all_once hash ts {| q_kernels := []; q_hits := 0; q_misses := 0 |})
    as (A & B & C & D & E); [constructor|intros e []|reflexivity|]. fold q in A, B, C, D, E.
  exists (map snd (q_kernels q)). split.
  { apply (NoDup_map_inv hash). rewrite map_map. rewrite (map_ext_in _ fst); [exact A|].
    intros e I. symmetry. now apply D. }
  split; [|split; [now rewrite map_length|exact C]].
  intros t. split.
  - intros I. destruct (E t I) as [[]|Q]. exact Q.
  - intros I. apply run_all_has; [|intros e []|now left]. intros a c X [Y|[]]. now apply INJ.
Qed.

(** * Concrete kernels *)
Definition ex_sem (op lane : N) (args : list N) (m : mem) : option N :=
  if op =? 0 then Some (fold_right N.add 0 args mod 2 ^ 32) else Some 0.

Definition ex_m : mem := fun a =>
  Some (if (1024 <=? a) && (a <? 1056) && ((a - 1024) mod 4 =? 0) then (a - 1024) / 4 + 10 else 0).

Definition ex_malloc (i : nat) (n : N) : option N := Some 64.
Definition ex_malloc2 (i : nat) (n : N) : option N := Some 256.

Definition mkv i t z kd o s := {| v_id := i; v_type := t; v_size := z; v_kind := kd; v_out := o; v_side := s; v_unal := false |}.

Definition ex_g : list var :=
  [mkv 1 8 5 (KEval 1024) false false; mkv 2 8 5 KCounter false false; mkv 3 1 5 (KMask 2) false false;
   mkv 4 8 5 (KOp 0 [1; 2] false) true false; mkv 5 0 5 (KOp 1 [4; 3] false) false true].
Definition ex_gpu : list var :=
  [mkv 1 8 5 (KEval 1024) false false; mkv 2 8 5 KCounter false false;
   mkv 4 8 5 (KOp 0 [1; 2] false) true false; mkv 5 0 5 (KOp 1 [4] false) false true].
Definition ex_g2 : list var :=
  [mkv 11 8 9 (KEval 4096) false false; mkv 12 8 9 KCounter false false; mkv 13 1 9 (KMask 12) false false;
   mkv 14 8 9 (KOp 0 [11; 12] false) true false; mkv 15 0 9 (KOp 1 [14; 13] false) false true].

Ltac each H := cbn in H; repeat (destruct H as [H|H]; [|]); try contradiction.

Lemma wf_ok : well_formed LLVM 5 ex_g.
Proof.
  constructor.
  - lia.
  - cbn. lia.
  - cbn. repeat constructor; cbn; intuition discriminate.
  - intros [|[|[|[|[|kk]]]]] v d V D; cbn in V; try (injection V as <-; cbn in D);
      try (destruct kk; discriminate); try contradiction.
    + destruct D as [<-|[]]. exists 1%nat. eexists. split; [lia|]. split; [reflexivity|]. split; [reflexivity|discriminate].
    + destruct D as [<-|[<-|[]]]; [exists 0%nat|exists 1%nat]; eexists; (split; [lia|]); (split; [reflexivity|]); (split; [reflexivity|discriminate]).
    + destruct D as [<-|[<-|[]]]; [exists 3%nat|exists 2%nat]; eexists; (split; [lia|]); (split; [reflexivity|]); (split; [reflexivity|discriminate]).
  - intros v V. each V; subst v; cbn; auto.
  - intros v V T. each V; subst v; try discriminate T. split; [reflexivity|]. cbn. eauto.
  - intros v V T. each V; subst v; try discriminate. now elim T.
  - intros v V T. each V; subst v; discriminate T.
  - intros v V T. each V; subst v; try discriminate T. reflexivity.
  - intros v c V T. each V; subst v; try discriminate T. injection T as <-. split; [reflexivity|]. split; [reflexivity|].
    intros u U E. each U; subst u; try discriminate E. reflexivity.
  - intros v V T. each V; subst v; try discriminate T. cbn. eauto.
Qed.

Lemma ex_in lane : lane < 8 -> holds ex_m (1024 + lane * 4) 4 (lane + 10).
Proof.
  intros L. split; [change (256 ^ 4) with (2 ^ 32); lia|]. intros q Q. unfold ex_m. f_equal.
  assert (Q4 : q = 0 \/ q = 1 \/ q = 2 \/ q = 3) by lia.
  assert (L8 : lane = 0 \/ lane = 1 \/ lane = 2 \/ lane = 3 \/ lane = 4 \/ lane = 5 \/ lane = 6 \/ lane = 7) by lia.
  destruct Q4 as [->|[->|[->| ->]]]; destruct L8 as [->|[->|[->|[->|[->|[->|[->| ->]]]]]]]; reflexivity.
Qed.

Lemma means_inv sem b size cb g m0 i lane x : means sem b size cb g m0 i lane x ->
  exists v, In v g /\ v_id v = i /\
  match v_kind v with
  | KEval data => exists y, holds m0 (data + (if v_size v =? 1 then 0 else lane) * type_size (v_type v))
                                  (type_size (v_type v)) y /\ x = (if v_type v =? T_Bool then truth b y else y)
  | KLit bits => x = bits
  | KCounter => x = lane
  | KMask _ => x = (if lane <? size then 1 else 0)
  | KOp op deps call => exists xs, sem op lane (xs ++ (if call then [cb] else [])) m0 = Some x
  end.
Proof.
  intros M. inversion M; subst; (eexists; split; [eassumption|]; split; [reflexivity|]);
    match goal with X : v_kind _ = _ |- _ => rewrite X end; eauto.
Qed.

Lemma ex_conditions : exists k, allocate LLVM 4 5 ex_malloc 0 ex_g = Done k /\
  well_formed LLVM 5 ex_g /\ aligned_ok ex_g 4 /\ buffers_ok LLVM ex_m 4 (k_bufs k) /\
  inputs_ok ex_sem LLVM 5 0 ex_g ex_m 4 (k_bufs k) /\ defined ex_sem LLVM 5 0 ex_g ex_m 4.
Proof.
  eexists. split; [vm_compute; reflexivity|]. cbn [k_bufs]. split; [exact wf_ok|].
  assert (LN : lanes LLVM 5 4 = 8) by reflexivity.
  split.
  { constructor.
    - exists 2. split; [reflexivity|lia].
    - intros v V. each V; subst v; vm_compute; discriminate.
    - intros v data V K. each V; subst v; try discriminate K. injection K as <-. reflexivity.
    - intros v V K. each V; subst v; reflexivity. }
  split.
  { constructor.
    - intros e a _ _. discriminate.
    - intros [|[|i]] [|[|j]] e f a E F NE; cbn in E, F; try discriminate; try (now elim NE); destruct i; discriminate.
    - intros e [<-|[]]. reflexivity. }
  split.
  { constructor.
    - intros v data lane kk V K L Q. rewrite LN in L. each V; subst v; try discriminate K. injection K as <-.
      intros (e & [<-|[]] & I). unfold inside in I. cbv beta iota in I. change (malloc_bytes LLVM 4 32) with 64 in I.
      change (type_size 8) with 4 in *. change (5 =? 1) with false in I. cbv iota in I. lia.
    - intros v op deps call lane args r m V K L A S H. unfold ex_sem in *. destruct (op =? 0); exact H. }
  assert (M1 : forall lane, lane < 8 -> means ex_sem LLVM 5 0 ex_g ex_m 1 lane (lane + 10)).
  { intros lane L. pose proof (ex_in lane L) as H.
    apply (means_eval ex_sem LLVM 5 0 ex_g ex_m (mkv 1 8 5 (KEval 1024) false false) 1024 lane (lane + 10)).
    - now left.
    - reflexivity.
    - exact H. }
  assert (M2 : forall lane, means ex_sem LLVM 5 0 ex_g ex_m 2 lane lane).
  { intros lane. apply (means_counter ex_sem LLVM 5 0 ex_g ex_m (mkv 2 8 5 KCounter false false)); [cbn; auto|reflexivity]. }
  assert (M3 : forall lane, means ex_sem LLVM 5 0 ex_g ex_m 3 lane (if lane <? 5 then 1 else 0)).
  { intros lane. apply (means_mask ex_sem LLVM 5 0 ex_g ex_m (mkv 3 1 5 (KMask 2) false false) 2); [cbn; auto|reflexivity]. }
  assert (M4 : forall lane, lane < 8 -> exists x, means ex_sem LLVM 5 0 ex_g ex_m 4 lane x).
  { intros lane L. eexists. apply (means_op ex_sem LLVM 5 0 ex_g ex_m (mkv 4 8 5 (KOp 0 [1; 2] false) true false) 0 [1; 2] false lane [lane + 10; lane]).
    - cbn; auto.
    - reflexivity.
    - reflexivity.
    - intros [|[|[|?]]] d x D X; cbn in D, X; try discriminate; injection D as <-; injection X as <-; auto.
    - reflexivity. }
  constructor.
  - intros v lane V L. rewrite LN in L. each V; subst v; cbn [v_id mkv]; eauto.
    destruct (M4 lane L) as [y Y]. eexists.
    apply (means_op ex_sem LLVM 5 0 ex_g ex_m (mkv 5 0 5 (KOp 1 [4; 3] false) false true) 1 [4; 3] false lane [y; if lane <? 5 then 1 else 0]).
    + cbn; auto 10.
    + reflexivity.
    + reflexivity.
    + intros [|[|[|?]]] d x D X; cbn in D, X; try discriminate; injection D as <-; injection X as <-; auto.
    + reflexivity.
  - intros v lane x V T L M. rewrite LN in L. apply means_inv in M as (u & U & I & K).
    each V; subst v; cbn [v_id v_type mkv] in *; try (now elim T); each U; subst u; try discriminate I;
      cbn [v_kind mkv v_type] in K.
    + destruct K as (y & [H _] & ->). exact H.
    + subst x. change (2 ^ bits_of 8) with (2 ^ 32). lia.
    + subst x. change (2 ^ bits_of 1) with 2. destruct (lane <? 5); lia.
    + destruct K as (xs & K). unfold ex_sem in K. change (0 =? 0) with true in K. cbv iota in K.
      injection K as <-. change (2 ^ bits_of 8) with (2 ^ 32). lia.
Qed.

(** 64-bit values at width 16 *)
Definition al_g : list var := [mkv 1 15 16 (KLit 7) true false].

Lemma alignment_refuted : exists sem size cb g m0 w malloc k units picks,
  well_formed LLVM size g /\ w = 16 /\ (forall v, In v g -> v_unal v = false) /\
  allocate LLVM w size malloc cb g = Done k /\
  buffers_ok LLVM m0 w (k_bufs k) /\ inputs_ok sem LLVM size cb g m0 w (k_bufs k) /\
  defined sem LLVM size cb g m0 w /\ llvm_units w 16 1 size = Some units /\
  run sem (generate LLVM w k) w (k_params k) (launched m0 units) picks = UB.
Proof.
  exists ex_sem, 16, 0, al_g, (fun _ => Some 0), 16, ex_malloc. do 2 eexists. exists [0; 0; 0]%nat.
  split; [|split; [reflexivity|split; [|split; [vm_compute; reflexivity|split; [|split; [|split; [|split; [vm_compute; reflexivity|vm_compute; reflexivity]]]]]]]].
  - constructor.
    + lia.
    + cbn. lia.
    + cbn. repeat constructor; cbn; intuition.
    + intros [|kk] v d V D; cbn in V; [|destruct kk; discriminate]. injection V as <-. destruct D.
    + intros v [<-|[]]; cbn; auto.
    + intros v [<-|[]]; discriminate.
    + intros v [<-|[]]; discriminate.
    + intros v [<-|[]]; discriminate.
    + intros v [<-|[]]; discriminate.
    + intros v c [<-|[]]; discriminate.
    + intros v [<-|[]]; discriminate.
  - intros v [<-|[]]; reflexivity.
  - cbn [k_bufs]. constructor.
    + discriminate.
    + intros [|[|i]] [|[|j]] e f a E F NE; cbn in E, F; try discriminate; try (now elim NE); destruct i; discriminate.
    + intros e [<-|[]]. reflexivity.
  - constructor.
    + intros v data lane kk [<-|[]]; discriminate.
    + intros v op deps call lane args r m [<-|[]]; discriminate.
  - constructor.
    + intros v lane [<-|[]] L. exists 7. apply means_lit with (v := mkv 1 15 16 (KLit 7) true false); [now left|reflexivity].
    + intros v lane x [<-|[]] T L M. apply means_inv in M as (u & [<-|[]] & I & K). cbn in K. subst x.
      reflexivity.
Qed.

(** Division by an array of 2 elements at width 4; operation 0 is undefined for 0. *)
Definition pad_sem (op lane : N) (args : list N) (m : mem) : option N :=
  match args with [d] => if d =? 0 then None else Some (7 / d) | _ => None end.
Definition pad_m : mem := fun a => Some (if (a =? 1024) || (a =? 1028) then 1 else 0).
Definition pad_g : list var := [mkv 1 8 2 (KEval 1024) false false; mkv 2 8 2 (KOp 0 [1] false) true false].

Lemma padding_refuted : exists sem size cb g m0 w malloc k units picks,
  well_formed LLVM size g /\ aligned_ok g w /\
  allocate LLVM w size malloc cb g = Done k /\
  buffers_ok LLVM m0 w (k_bufs k) /\ inputs_ok sem LLVM size cb g m0 w (k_bufs k) /\
  (forall v lane, In v g -> lane < size -> exists x, means sem LLVM size cb g m0 (v_id v) lane x) /\
  llvm_units w 4 1 size = Some units /\
  run sem (generate LLVM w k) w (k_params k) (launched m0 units) picks = UB.
Proof.
  exists pad_sem, 2, 0, pad_g, pad_m, 4, ex_malloc. do 2 eexists. exists [0; 0; 0; 0]%nat.
  assert (LN : lanes LLVM 2 4 = 4) by reflexivity.
  split; [|split; [|split; [vm_compute; reflexivity|split; [|split; [|split; [|split; [vm_compute; reflexivity|vm_compute; reflexivity]]]]]]].
  - constructor.
    + lia.
    + cbn. lia.
    + cbn. repeat constructor; cbn; intuition discriminate.
    + intros [|[|kk]] v d V D; cbn in V; [| |destruct kk; discriminate]; injection V as <-; cbn in D; [destruct D|].
      destruct D as [<-|[]]. exists 0%nat. eexists. split; [lia|]. split; [reflexivity|]. split; [reflexivity|discriminate].
    + intros v V. each V; subst v; cbn; auto.
    + intros v V T. each V; subst v; discriminate.
    + intros v V T. each V; subst v; discriminate.
    + intros v V T. each V; subst v; discriminate.
    + intros v V T. each V; subst v; discriminate.
    + intros v c V T. each V; subst v; discriminate.
    + intros v V T. each V; subst v; discriminate.
  - constructor.
    + exists 2. split; [reflexivity|lia].
    + intros v V. each V; subst v; vm_compute; discriminate.
    + intros v data V K. each V; subst v; try discriminate K. injection K as <-. reflexivity.
    + intros v V K. each V; subst v; reflexivity.
  - cbn [k_bufs]. constructor.
    + discriminate.
    + intros [|[|i]] [|[|j]] e f a E F NE; cbn in E, F; try discriminate; try (now elim NE); destruct i; discriminate.
    + intros e [<-|[]]. reflexivity.
  - constructor.
    + intros v data lane kk V K L Q. rewrite LN in L. each V; subst v; try discriminate K. injection K as <-.
      cbn [k_bufs]. intros (e & [<-|[]] & I). unfold inside in I. cbv beta iota in I. change (malloc_bytes LLVM 4 16) with 64 in I.
      change (type_size 8) with 4 in *. change (2 =? 1) with false in I. cbv iota in I. lia.
    + intros v op deps call lane args r m V K L A S H. exact H.
  - assert (M1 : forall lane, lane < 2 -> means pad_sem LLVM 2 0 pad_g pad_m 1 lane 1).
    { intros lane L. apply (means_eval pad_sem LLVM 2 0 pad_g pad_m (mkv 1 8 2 (KEval 1024) false false) 1024 lane 1).
      - now left.
      - reflexivity.
      - split; [reflexivity|]. intros q Q. change (type_size (v_type (mkv 1 8 2 (KEval 1024) false false))) with 4 in *.
        assert (Q4 : q = 0 \/ q = 1 \/ q = 2 \/ q = 3) by lia. assert (L2 : lane = 0 \/ lane = 1) by lia.
        destruct Q4 as [->|[->|[->| ->]]]; destruct L2 as [->| ->]; reflexivity. }
    intros v lane V L. each V; subst v; cbn [v_id mkv]; eauto.
    exists 7. apply (means_op pad_sem LLVM 2 0 pad_g pad_m (mkv 2 8 2 (KOp 0 [1] false) true false) 0 [1] false lane [1]).
    + cbn; auto.
    + reflexivity.
    + reflexivity.
    + intros [|[|?]] d x D X; cbn in D, X; try discriminate; injection D as <-; injection X as <-; auto.
    + reflexivity.
Qed.
