(** C69: cooperative vectors. *)
From Verif Require Import Base Cov_Model Cov_Spec Cov_Proofs Cov_Effects Cov_Mat Cov_Ieee.
Local Open Scope N_scope.

(** Every variable that a program creates has the type, length, size and elements that its calls
    say, and the program fails exactly when the arguments of a call do not fit *)
Theorem C69_values_partial {R} b (ar : arith R) st late callable act eqv p :
  laws ar eqv -> store_ok st -> store_typed st eqv -> good b st [] [] p ->
  match run st [] [] p, meanings b ar st [] p with
  | Some (h, regs), Some env =>
      length regs = length env /\
      forall r a v, nth_error regs r = Some a -> nth_error env r = Some v ->
        exists nd, at_ h a = Some nd /\ n_ty nd = s_ty v /\ n_size nd = s_size v /\ n_len nd = s_len v /\ s_len v < 2 ^ 16 /\
        forall l, callable = false \/ act l = true -> s_size v = 1 \/ l < s_size v ->
          exists xs, value b ar st late callable act h l a = Val xs /\ Forall2 (eqv (s_ty v)) xs (pick v l) /\ length xs = N.to_nat (s_len v)
  | None, None => True
  | _, _ => False
  end.
Proof. intros L S T. exact (program_ok b ar st late callable act eqv L S T p). Qed.

(** Accumulations of vectors and outer products: whatever the order of the atomic additions,
    each element of the buffer receives what the lanes of all effects add there *)
Theorem C69_effects_partial {R} b (ar : arith R) st late act eqv w p t es m :
  laws ar eqv -> exact_add ar eqv -> store_ok st -> store_typed st eqv -> 0 < w -> good b st [] [] p ->
  N.of_nat (length m) < 2 ^ 32 -> addable b t ->
  match run st [] [] p, meanings b ar st [] p with
  | Some (h, regs), Some env =>
      Forall (good_effect b (combine regs env) t (N.of_nat (length m))) es ->
      exists ls, each (fun exy => atomics b ar st late false act w h (fst (fst exy))) es = Val ls /\
      forall evs, Permutation evs (concat ls) ->
      exists m', perform ar t evs m = Val m' /\ length m' = length m /\
        forall k d, k < N.of_nat (length m) -> eqv t (nth (N.to_nat k) m' d) (arith2 ar Add t (nth (N.to_nat k) m d) (total ar t k (all_additions ar t es)))
  | None, None => True
  | _, _ => False
  end.
Proof. exact (training_ok b ar st late act eqv w p t es m). Qed.

(** The laws hold for IEEE 754 arithmetic and machine integers, up to the sign of zero and the kind
    of NaN, whatever the functions of the mathematical library are *)
Theorem C69_ieee f : (forall u t x y, same_value t x y -> same_value t (f u t x) (f u t y)) -> laws (ieee f) same_value.
Proof. exact (ieee_laws f). Qed.

(** Packing copies every element of every matrix and leaves everything else as it is *)
Theorem C69_pack_matrices_partial {R} ni no (inp m : mem R) l :
  Forall (pair_ok ni no) l -> ForallOrdPairs (fun a c => disjoint (snd a) (snd c)) l ->
  Forall (fun io => copied inp io (pack_matrices inp l m)) l /\
  forall q, (forall io, In io l -> ~ covers (snd io) q) -> pack_matrices inp l m q = m q.
Proof. exact (pack_ok ni no inp l m). Qed.

(** Layouts computed one after the other do not overlap, and packing into them works *)
Theorem C69_layout {R} (inp m : mem R) ni no l off :
  Forall (descr_ok ni) l -> Forall (shape_ok no) l -> off + extent l <= no ->
  let io := combine l (layouts l off) in
  length io = length l /\ Forall (fun x => copied inp x (pack_matrices inp io m)) io /\
  forall q, ~ (off <= q < off + extent l) -> pack_matrices inp io m q = m q.
Proof. exact (pack_layouts inp m ni no l off). Qed.

(** ** Examples *)
(** Arithmetic on integers *)
Definition zsigned (t : N) : bool := (t =? 3) || (t =? 5) || (t =? 7) || (t =? 9).
Definition zbits (t x : N) : Z :=
  if is_float t then if zero_bits t x then 0%Z else if x =? one_bits t then 1%Z else Z.of_N x
  else if zsigned t && (0 <? tsz t) && (2 ^ (8 * tsz t - 1) <=? x) then (Z.of_N x - 2 ^ Z.of_N (8 * tsz t))%Z else Z.of_N x.
Definition zar : arith Z := {|
  of_bits := zbits;
  arith2 o _ x y := match o with Add => (x + y)%Z | Sub => (x - y)%Z | Mul => (x * y)%Z | Min => Z.min x y | Max => Z.max x y | _ => 0%Z end;
  less _ x y := (x <? y)%Z;
  fused _ x y z := (x * y + z)%Z;
  arith1 _ _ x := (2 ^ x)%Z;
  conv _ _ x := x;
  instr c s _ x := match c with ZExt | UiToFp => (x mod 2 ^ Z.of_N (8 * tsz s))%Z | _ => x end |}.
Lemma zbits_zero t z : zero_bits t z = true -> zbits t z = 0%Z.
Proof.
  intros H. unfold zbits. rewrite H. destruct (is_float t) eqn:F; [reflexivity|].
  assert (z = 0) as -> by (unfold zero_bits, is_float in *; lia).
  destruct (zsigned t && (0 <? tsz t)) eqn:Q; [|reflexivity]. cbn [andb].
  assert (0 < 2 ^ (8 * tsz t - 1)) by (apply N.neq_0_lt_0, N.pow_nonzero; lia).
  replace (2 ^ (8 * tsz t - 1) <=? 0) with false by lia. reflexivity.
Qed.
Lemma zbits_one t : zbits t (one_bits t) = 1%Z.
Proof.
  unfold zbits. destruct (is_float t) eqn:F.
  - assert (zero_bits t (one_bits t) = false) as ->; [|now rewrite N.eqb_refl].
    unfold is_float, Float16, Float32, Float64 in F. assert (t = 13 \/ t = 14 \/ t = 15) as [->|[->| ->]] by lia; reflexivity.
  - assert (one_bits t = 1) as -> by (unfold one_bits, is_float in *; destruct (t =? Float16), (t =? Float32), (t =? Float64); try discriminate; reflexivity).
    destruct (zsigned t && (0 <? tsz t)) eqn:Q; [|reflexivity]. cbn [andb].
    assert (t = 3 \/ t = 5 \/ t = 7 \/ t = 9) as [->|[->|[->| ->]]] by (unfold zsigned in Q; lia); reflexivity.
Qed.
Lemma zar_laws : laws zar (fun _ => eq).
Proof.
  split; cbn [of_bits arith2 less fused arith1 conv instr zar]; intros; subst; auto.
  - rewrite zbits_zero by auto. split; lia.
  - rewrite zbits_one. split; lia.
  - rewrite zbits_one. split; lia.
  - rewrite zbits_zero by auto. lia.
Qed.
Lemma zar_exact : exact_add zar (fun _ => eq).
Proof. split; cbn [arith2 zar]; intros; reflexivity || lia. Qed.

Definition zarr (t : N) (l : list Z) : arr Z := {| a_ty := t; a_size := N.of_nat (length l); a_lit := None; a_data := l; a_new := None |}.
Definition zlit (t x s : N) : arr Z := {| a_ty := t; a_size := s; a_lit := Some x; a_data := []; a_new := None |}.
Definition zst : store Z := fun i => nth_error [
  zarr Float32 [1; 2; 3]%Z; zlit Float32 0x3f800000 1; zarr Float32 [1; 2; 3; 4; 5; 6; 7; 8]%Z; zarr Float32 [10; 20]%Z; zarr Float32 [7; 7]%Z;
  {| a_ty := Float32; a_size := 2; a_lit := None; a_data := [1; 2]%Z; a_new := Some [3; 4]%Z |}] (N.to_nat i).
Definition mat (t r c off str : N) : descr := {| d_ty := t; d_rows := r; d_cols := c; d_off := off; d_stride := str; d_size := r * c |}.
Lemma zst_ok : store_ok zst.
Proof.
  intros i v. unfold zst. generalize (N.to_nat i) as k. intros k E.
  do 6 (destruct k as [|k]; [injection E as <-; cbn; split; [lia|intros H; first [discriminate|split; [reflexivity|intros l Q; first [discriminate|injection Q as <-; reflexivity]]]]|]).
  destruct k; discriminate.
Qed.
Lemma zst_typed : store_typed zst (fun _ => eq).
Proof. red. reflexivity. Qed.
Definition prog : list call := [
  CPack [0; 1];                                                     (* (x, 1) *)
  CLoad 2 4 2;                                                      (* (5, 6) *)
  CMat 2 (mat Float32 2 2 0 2) 0 (Some (3, mat Float32 2 1 0 1)) false;
  CFma 2 1 0;
  CLit Float32 0x80000000 1 2;
  CBin Add 3 4;
  CBin Max 5 1;
  CCast 6 Float16].
Ltac narrow_tac := let a := fresh in let c := fresh in let x := fresh in let y := fresh in
  intros a c x y Ha Hc Ex Ey (q & Hq); cbn in Ha, Hc;
  repeat match goal with H : _ \/ _ |- _ => destruct H as [<-|H] end; try tauto;
  vm_compute in Ex, Ey; injection Ex as <-; injection Ey as <-; vm_compute; discriminate.
Ltac clean_tac := let v := fresh in let E := fresh in intros v E; vm_compute in E; injection E as <-; reflexivity.
Ltac typed_tac := let i := fresh in let v := fresh in let E := fresh in let F := fresh in intros i v E F; vm_compute in E; injection E as <-; vm_compute in F; injection F as <-; reflexivity.
Ltac next := let x := fresh in let E := fresh in intros x E; vm_compute in E; injection E as <-; cbn [fst snd app].
Lemma mat_bound r c off str n : off + r * str + c <= n + str -> forall i j, i < r -> j < c -> off + i * str + j < n.
Proof. intros H i j Hi Hj. assert (i * str + str <= r * str) by (replace (i * str + str) with ((i + 1) * str) by lia; apply N.mul_le_mono_r; lia). lia. Qed.
Lemma prog_good : good LLVM zst [] [] prog.
Proof.
  split; [cbn; intros i [<-|[<-|[]]]; (split; [clean_tac|vm_compute; tauto])|next].
  split; [cbn; split; [clean_tac|vm_compute; repeat split; discriminate]|next].
  split; [cbn [good_call]; split; [clean_tac|split; [reflexivity|split; [apply mat_bound; vm_compute; discriminate|split; [intros _; split; [reflexivity|now left]|split; [clean_tac|split; [vm_compute; discriminate|reflexivity]]]]]]|next].
  split; [cbn [good_call]; split; [narrow_tac|typed_tac]|next].
  split; [reflexivity|next].
  split; [cbn [good_call]; split; [discriminate|split; [narrow_tac|intros _ [?|[?|?]]; discriminate]]|next].
  split; [cbn [good_call]; split; [discriminate|split; [narrow_tac|intros _ _; typed_tac]]|next].
  split; [cbn [good_call]; intros _; split; [reflexivity|typed_tac]|next].
  exact Logic.I.
Qed.
Example C69_prog :
  match run zst [] [] prog, meanings LLVM zar zst [] prog with
  | Some (h, regs), Some env =>
      regs = [0; 1; 2; 3; 4; 3; 5; 6] /\
      map (fun l => value LLVM zar zst (fun _ => true) false (fun _ => true) h l 6) [0; 1; 2]
        = [Val [66; 163]; Val [72; 181]; Val [78; 199]]%Z /\
      map (fun v => map (pick v) [0; 1; 2]) env
        = [[[1; 1]; [2; 1]; [3; 1]]; [[5; 6]; [5; 6]; [5; 6]]; [[13; 27]; [14; 30]; [15; 33]]; [[66; 163]; [72; 181]; [78; 199]];
           [[0; 0]; [0; 0]; [0; 0]]; [[66; 163]; [72; 181]; [78; 199]]; [[66; 163]; [72; 181]; [78; 199]]; [[66; 163]; [72; 181]; [78; 199]]]%Z
  | _, _ => False
  end.
Proof. vm_compute. repeat split. Qed.
(** Half precision with IEEE 754 arithmetic: 65504 + 65504 and 2050 * 2050 overflow; sums with zeros
    are simplified, so that -0 + 0 is -0 instead of 0 *)
Definition hst : store N := fun i => nth_error [
  {| a_ty := Float16; a_size := 3; a_lit := None; a_data := [0x7bff; 0x6801; 0x8000]; a_new := None |};
  {| a_ty := Float16; a_size := 1; a_lit := Some 0x3c00; a_data := []; a_new := None |}] (N.to_nat i).
Definition hprog : list call := [
  CPack [0; 1]; CLit Float16 0x8000 1 2; CBin Add 0 1; CLit Float16 0 1 2; CBin Add 2 3; CBin Add 0 4; CFma 0 0 3; CCast 6 Float32].
Definition har : arith N := ieee (fun _ _ x => x).
Lemma hst_ok : store_ok hst /\ store_typed hst same_value.
Proof.
  split.
  - intros i v. unfold hst. generalize (N.to_nat i) as k. intros k E.
    do 2 (destruct k as [|k]; [injection E as <-; cbn; split; [lia|intros H; first [discriminate|split; [reflexivity|intros l Q; discriminate]]]|]). destruct k; discriminate.
  - intros i v x. unfold hst. generalize (N.to_nat i) as k. intros k E Lt Hx.
    destruct k as [|k]; [injection E as <-; cbn in Hx; destruct Hx as [Hx|(l & Q & _)]; [|discriminate]; apply same_refl; repeat (destruct Hx as [<-|Hx]; [reflexivity|]); destruct Hx|].
    destruct k as [|k]; [injection E as <-; discriminate|]. destruct k; discriminate.
Qed.
Lemma hprog_good : good LLVM hst [] [] hprog.
Proof.
  split; [cbn; intros i [<-|[<-|[]]]; (split; [clean_tac|vm_compute; tauto])|next].
  split; [reflexivity|next].
  split; [cbn [good_call]; split; [discriminate|split; [narrow_tac|intros _ [?|[?|?]]; discriminate]]|next].
  split; [reflexivity|next].
  split; [cbn [good_call]; split; [discriminate|split; [narrow_tac|intros _ [?|[?|?]]; discriminate]]|next].
  split; [cbn [good_call]; split; [discriminate|split; [narrow_tac|intros _ [?|[?|?]]; discriminate]]|next].
  split; [cbn [good_call]; split; [narrow_tac|typed_tac]|next].
  split; [cbn [good_call]; intros _; split; [reflexivity|typed_tac]|next].
  exact Logic.I.
Qed.
Example C69_half :
  match run hst [] [] hprog, meanings LLVM har hst [] hprog with
  | Some (h, regs), Some env =>
      regs = [0; 1; 0; 2; 0; 3; 4; 5] /\
      map (fun a => map (fun l => value LLVM har hst (fun _ => true) false (fun _ => true) h l a) [0; 1; 2]) [0; 3; 4; 5]
        = [[Val [0x7bff; 0x3c00]; Val [0x6801; 0x3c00]; Val [0x8000; 0x3c00]];
           [Val [0x7c00; 0x4000]; Val [0x6c01; 0x4000]; Val [0x8000; 0x4000]];
           [Val [0x7c00; 0x3c00]; Val [0x7c00; 0x3c00]; Val [0; 0x3c00]];
           [Val [0x7f800000; 0x3f800000]; Val [0x7f800000; 0x3f800000]; Val [0; 0x3f800000]]] /\
      map (fun v => map (pick v) [0; 1; 2]) env
        = [[[0x7bff; 0x3c00]; [0x6801; 0x3c00]; [0x8000; 0x3c00]]; [[0x8000; 0x8000]; [0x8000; 0x8000]; [0x8000; 0x8000]];
           [[0x7bff; 0x3c00]; [0x6801; 0x3c00]; [0x8000; 0x3c00]]; [[0; 0]; [0; 0]; [0; 0]];
           [[0x7bff; 0x3c00]; [0x6801; 0x3c00]; [0; 0x3c00]]; [[0x7c00; 0x4000]; [0x6c01; 0x4000]; [0; 0x4000]];
           [[0x7c00; 0x3c00]; [0x7c00; 0x3c00]; [0; 0x3c00]];
           [[0x7f800000; 0x3f800000]; [0x7f800000; 0x3f800000]; [0; 0x3f800000]]]
  | _, _ => False
  end.
Proof. vm_compute. repeat split. Qed.
(** The mask excludes lane 1; packets of two lanes *)
Definition none : vec Z := {| s_ty := 0; s_size := 0; s_len := 0; s_lane := fun _ => [] |}.
Definition zeffects (env : list (vec Z)) : list (effect * vec Z * vec Z) :=
  [(EAdd 1 0 3 (fun l => negb (l =? 1)), nth 0 env none, none); (EOuter (mat Float32 2 2 0 3) 0 1 3 (fun _ => true), nth 0 env none, nth 1 env none)].
Example C69_effects_good :
  exists h regs env, run zst [] [] prog = Some (h, regs) /\ meanings LLVM zar zst [] prog = Some env /\
    Forall (good_effect LLVM (combine regs env) Float32 6) (zeffects env).
Proof.
  assert (M : option_map (fun env => (map s_ty env, map s_size env, map s_len env)) (meanings LLVM zar zst [] prog)
              = Some ([14; 14; 14; 14; 14; 14; 14; 13], [3; 1; 3; 3; 1; 3; 3; 3], [2; 2; 2; 2; 2; 2; 2; 2])) by (vm_compute; reflexivity).
  assert (Rn : option_map snd (run zst [] [] prog) = Some [0; 1; 2; 3; 4; 3; 5; 6]) by (vm_compute; reflexivity).
  destruct (run zst [] [] prog) as [[h regs]|]; [|discriminate]. destruct (meanings LLVM zar zst [] prog) as [env|]; [|discriminate].
  cbn in M, Rn. injection M as M1 M2 M3. injection Rn as ->. exists h, [0; 1; 2; 3; 4; 3; 5; 6], env. split; [reflexivity|]. split; [reflexivity|].
  destruct env as [|x [|y env]]; try discriminate. cbn in M1, M2, M3. injection M1 as X1 Y1 _. injection M2 as X2 Y2 _. injection M3 as X3 Y3 _.
  unfold zeffects, wide. cbn [nth]. constructor; [|constructor; [|constructor]]; cbn [good_effect].
  - split; [now left|]. split; [exact X1|]. split; [right; rewrite X2; lia|]. rewrite X3. split; lia.
  - split; [now left|]. split; [right; now left|]. split; [exact X1|]. split; [exact Y1|]. split; [right; rewrite X2; lia|]. split; [left; exact Y2|]. rewrite X3, Y3. split; [|intros _; reflexivity].
    apply (mat_bound 2 2 0 3 6). lia.
Qed.
Example C69_effects :
  match run zst [] [] prog, meanings LLVM zar zst [] prog with
  | Some (h, _), Some env =>
      (match each (fun exy => atomics LLVM zar zst (fun _ => true) false (fun _ => true) 2 h (fst (fst exy))) (zeffects env) with
       | Val ls => Some (map (@length _) ls, perform zar Float32 (rev (concat ls)) [100; 200; 300; 400; 500; 600]%Z)
       | _ => None
       end,
       map (fun k => total zar Float32 k (all_additions zar Float32 (zeffects env))) [0; 1; 2; 3; 4; 5])
  | _, _ => (None, [])
  end = (Some ([4; 8]%nat, Val [130; 240; 302; 415; 518; 600]%Z), [30; 40; 2; 15; 18; 0]%Z).
Proof. vm_compute. reflexivity. Qed.
Definition mats : list descr := [mat Float32 2 2 4 3; mat Float32 1 3 0 3].
Example C69_layouts :
  layouts mats 5 = [mat Float32 2 2 5 2; mat Float32 1 3 9 3] /\
  map (pack_matrices (fun k => Z.of_N k) (combine mats (layouts mats 5)) (fun _ => (-1)%Z)) (upto 13) = [-1; -1; -1; -1; -1; 4; 5; 7; 8; 0; 1; 2; -1]%Z /\
  Forall (descr_ok 9) mats /\ Forall (shape_ok 13) mats /\ 5 + extent mats <= 13.
Proof.
  split; [reflexivity|]. split; [reflexivity|]. split; [|split; [|vm_compute; discriminate]].
  - repeat constructor; try (vm_compute; discriminate); try apply mat_bound; try (vm_compute; discriminate); cbn; lia.
  - repeat constructor.
Qed.
(** In a callable, lanes that do not execute it can get other elements *)
Example C69_callable :
  match run zst [] [] prog with
  | Some (h, _) => map (fun l => value LLVM zar zst (fun _ => true) true (fun l => l =? 1) h l 1) [0; 1] = [Val [0; 0]; Val [5; 6]]%Z
  | None => False
  end.
Proof. reflexivity. Qed.

(** ** What the conditions exclude *)
(** Elements of a variable and what they should be; size and length, and what they should be *)
Definition outcome (b : bk) (st : store Z) (p : list call) (r : nat) (l : N) : option (out (list Z) * list Z * (N * N) * (N * N)) :=
  let? x := run st [] [] p in
  let? env := meanings b zar st [] p in
  let? a := nth_error (snd x) r in
  let? v := nth_error env r in
  let? nd := at_ (fst x) a in
  Some (value b zar st (fun _ => true) false (fun _ => true) (fst x) l a, pick v l, (n_size nd, n_len nd), (s_size v, s_len v)).
(** LLVM: matrix-vector products ignore the row stride *)
Theorem C69_stride_refuted : exists p x y s, outcome LLVM zst p 1 0 = Some (Val x, y, s, s) /\ x <> y.
Proof. exists [CPack [0; 1]; CMat 2 (mat Float32 2 2 0 3) 0 None false], [3; 7]%Z, [3; 9]%Z, (3, 2). split; [reflexivity|discriminate]. Qed.
(** Adding a wide zero changes the size of the other operand, in place *)
Theorem C69_resize_operand_refuted : exists b p x s s', outcome b zst p 0 0 = Some (Val x, x, s, s') /\ s <> s'.
Proof. exists LLVM, [CLoad 2 4 2; CLit Float32 0 3 2; CBin Add 0 1], [5; 6]%Z, (3, 2), (1, 2). split; [reflexivity|discriminate]. Qed.
(** ... or makes a variable for which LLVM code cannot be generated *)
Theorem C69_resize_code_refuted : exists p y s, outcome LLVM zst p 3 0 = Some (Bad, y, s, s) /\ outcome Metal zst p 3 0 = Some (Val y, y, s, s).
Proof. exists [CLoad 2 4 2; CCast 0 Float32; CLit Float32 0 3 2; CBin Add 0 2], [5; 6]%Z, (3, 2). split; reflexivity. Qed.
(** LLVM: signed integers are converted as if they were unsigned; conversions between signed and
    unsigned integers of the same size are rejected *)
Theorem C69_signed_cast_refuted : exists p x y s, outcome LLVM zst p 1 0 = Some (Val x, y, s, s) /\ x <> y.
Proof. exists [CLit 3 255 1 1; CCast 0 7], [255]%Z, [-1]%Z, (1, 1). split; [reflexivity|discriminate]. Qed.
Theorem C69_same_size_cast_refuted : exists p y s, outcome LLVM zst p 1 0 = Some (Bad, y, s, s).
Proof. exists [CLit 8 5 1 1; CCast 0 7], [5]%Z, (1, 1). reflexivity. Qed.
(** LLVM: no minimum, maximum and step of integers, and no unary operations; no fused
    multiply-add of integers *)
Theorem C69_integer_ops_refuted : forall o, o = Min \/ o = Max \/ o = Step -> exists p y s, In (CBin o 0 0) p /\ outcome LLVM zst p 1 0 = Some (Bad, y, s, s).
Proof.
  intros o [->|[->| ->]].
  - exists [CLit 8 5 1 1; CBin Min 0 0], [5]%Z, (1, 1). split; [right; now left|reflexivity].
  - exists [CLit 8 5 1 1; CBin Max 0 0], [5]%Z, (1, 1). split; [right; now left|reflexivity].
  - exists [CLit 8 5 1 1; CBin Step 0 0], [1]%Z, (1, 1). split; [right; now left|reflexivity].
Qed.
Theorem C69_integer_fma_refuted : exists p y s, outcome LLVM zst p 1 0 = Some (Bad, y, s, s).
Proof. exists [CLit 8 5 1 1; CFma 0 0 0], [30]%Z, (1, 1). reflexivity. Qed.
Theorem C69_unary_refuted : exists p y s, outcome LLVM zst p 1 0 = Some (Bad, y, s, s).
Proof. exists [CLoad 2 4 2; CUnary Exp2 0], [32; 64]%Z, (1, 2). reflexivity. Qed.
(** Arrays of different sizes are packed, and read out of bounds *)
Theorem C69_pack_sizes_refuted : exists b p y s, outcome b zst p 0 2 = Some (Oob, y, s, s).
Proof. exists LLVM, [CPack [0; 4]]. eexists _, _. vm_compute. reflexivity. Qed.
(** Offsets are not checked *)
Theorem C69_load_bounds_refuted : exists b p y s, outcome b zst p 0 0 = Some (Oob, y, s, s).
Proof. exists LLVM, [CLoad 2 7 2]. eexists _, _. vm_compute. reflexivity. Qed.
(** A load does not wait for the effects on its buffer *)
Theorem C69_load_pending_refuted : exists b p x y s, outcome b zst p 0 0 = Some (Val x, y, s, s) /\ x <> y.
Proof. exists LLVM, [CLoad 5 0 2], [1; 2]%Z, [3; 4]%Z, (1, 2). split; [reflexivity|discriminate]. Qed.
(** Lengths are reduced to 16 bit *)
Theorem C69_length_refuted : exists h a, literal [] Float32 0 1 65537 = Some (h, a) /\ option_map n_len (at_ h a) = Some 1.
Proof. eexists _, _. split; reflexivity. Qed.
(** LLVM: the byte offset of an outer product wraps, and the addition is done elsewhere *)
Theorem C69_outer_offset_refuted :
  exists p d x y, option_map (fun hr => atomics LLVM zar zst (fun _ => true) false (fun _ => true) 1 (fst hr) (EOuter d 0 0 1 (fun _ => true))) (run zst [] [] p)
      = Some (Val [(0%Z, x)]) /\
    additions zar Float32 (EOuter d 0 0 1 (fun _ => true)) (fun _ => y) (fun _ => y) = [(2 ^ 30, x)] /\ outcome LLVM zst p 0 0 = Some (Val y, y, (1, 1), (1, 1)).
Proof. exists [CLoad 2 4 1], (mat Float32 1 1 (2 ^ 30) 1), 25%Z, [5]%Z. vm_compute. auto. Qed.
(** Packing wraps at 4 GiB *)
Theorem C69_pack_offset_refuted :
  exists (inp m : mem Z) d e, same_shape d e /\ d_off d < 2 ^ 32 /\ d_off e < 2 ^ 32 /\
    pack_matrices inp [(d, e)] m (place e 0 0) <> inp (place d 0 0) /\ 0 < d_rows d /\ 0 < d_cols d.
Proof. exists Z.of_N, (fun _ => (-1)%Z), (mat Float32 1 1 (2 ^ 30) 1), (mat Float32 1 1 0 1). vm_compute. repeat split; discriminate. Qed.

Print Assumptions C69_values_partial.
Print Assumptions C69_effects_partial.
Print Assumptions C69_ieee.
Print Assumptions C69_pack_matrices_partial.
Print Assumptions C69_layout.
