(** C08, C09, C10, C11, C15, C56: arithmetic, comparisons, bit operations, selection. *)
From Verif Require Import Base Op_Model Op_Spec Op_Store Op_Built.
Local Open Scope N_scope.

(** ** C08 *)

(** For every store, flags, ownership oracle, integer type, pair of operands of
    compatible sizes: unless two literals are folded whose exact result overflows the
    type C++ computes in ([fold2_ok], see C11), the builder succeeds, keeps all
    variables, and every lane in which the operation is defined holds the two's
    complement result. *)
Theorem C08_binary_partial :
  forall fop cp fast uniq k B st a0 a1 t n0 n1,
  wf fop st -> has st a0 t n0 -> has st a1 t n1 -> compat n0 n1 -> is_int t = true ->
  In (k, B) [(Add, var_add fop cp uniq); (Sub, var_sub fop cp uniq); (Mul, var_mul fop cp fast uniq);
             (Div, var_div fop cp fast uniq); (Mod, var_mod cp uniq); (Min, var_min cp uniq); (Max, var_max cp uniq);
             (Shl, var_shl cp uniq); (Shr, var_shr cp uniq)] ->
  (cp = true -> forall x y, literal_is st a0 x -> literal_is st a1 y -> fold2_ok k t (num t x) (num t y)) ->
  built fop st (B st a0 a1) t (N.max n0 n1) (lanes2 fop st a0 t a1 t (spec2 k t) t).
Proof. intros. eapply binary_built; eauto. Qed.
Print Assumptions C08_binary_partial.

Theorem C08_unary_partial :
  forall fop cp k B st a0 t n, wf fop st -> has st a0 t n -> is_int t = true ->
  In (k, B) [(Neg, var_neg fop cp); (Not, var_not cp); (Abs, var_abs fop cp)] ->
  (cp = true -> forall x, literal_is st a0 x -> fold1_ok k t (num t x)) ->
  built fop st (B st a0) t n (lanes1 fop st a0 t (spec1 k t) t).
Proof. intros. eapply unary_built; eauto using (fun (_ : store) (_ : nat) => true). Qed.
Print Assumptions C08_unary_partial.

(** Bitwise operations on operands of the same type: every type. *)
Theorem C08_bitwise :
  forall fop cp uniq k B st a0 a1 t n0 n1, wf fop st -> has st a0 t n0 -> has st a1 t n1 -> compat n0 n1 ->
  In (k, B) [(And, var_and cp uniq); (Or, var_or cp uniq); (Xor, var_xor cp uniq)] ->
  built fop st (B st a0 a1) t (N.max n0 n1) (lanes2 fop st a0 t a1 t (spec2 k t) t).
Proof. intros. eapply bitwise_built; eauto. Qed.
Print Assumptions C08_bitwise.
Theorem C08_not_bool :
  forall fop cp st a0 n, wf fop st -> has st a0 Bool n ->
  built fop st (var_not cp st a0) Bool n (fun l x => exists a, value fop st a0 l = Some a /\ x = 1 - a).
Proof. intros. eapply not_built; eauto using (fun (_ : store) (_ : nat) => true). Qed.
Print Assumptions C08_not_bool.
(** Masking with a boolean. *)
Theorem C08_mask :
  forall fop cp uniq st a0 a1 t n0 n1, wf fop st -> has st a0 t n0 -> has st a1 Bool n1 -> compat n0 n1 -> t <> Bool ->
  built fop st (var_and cp uniq st a0 a1) t (N.max n0 n1)
    (fun l x => exists a m, value fop st a0 l = Some a /\ value fop st a1 l = Some m /\ (m = 1 -> x = a) /\ (m = 0 -> x = 0)) /\
  built fop st (var_or cp uniq st a0 a1) t (N.max n0 n1)
    (fun l x => exists a m, value fop st a0 l = Some a /\ value fop st a1 l = Some m /\ (m = 1 -> x = bits t (-1)) /\ (m = 0 -> x = a)).
Proof. intros. now apply mask_built. Qed.
Print Assumptions C08_mask.

Theorem C08_fma_partial :
  forall fop cp fast uniq st a0 a1 a2 t n0 n1 n2, wf fop st -> has st a0 t n0 -> has st a1 t n1 -> has st a2 t n2 ->
  compat n0 n1 -> compat n0 n2 -> compat n1 n2 -> is_int t = true ->
  (cp = true -> forall x y z, literal_is st a0 x -> literal_is st a1 y -> literal_is st a2 z ->
     fold3_ok t (num t x) (num t y) (num t z)) ->
  built fop st (var_fma fop cp fast uniq st a0 a1 a2) t (N.max n0 (N.max n1 n2))
    (lanes3 fop st a0 t a1 t a2 t (fun a b c => Some (a * b + c)%Z) t).
Proof. intros. now apply fma_built. Qed.
Print Assumptions C08_fma_partial.

Theorem C08_mul_wide :
  forall fop cp fast uniq st a0 a1 t t' n0 n1, wf fop st -> has st a0 t n0 -> has st a1 t n1 -> compat n0 n1 -> wide t = Some t' ->
  built fop st (var_mul_wide fop cp fast uniq st a0 a1) t' (N.max n0 n1) (lanes2 fop st a0 t a1 t (spec2 MulWide t) t').
Proof. intros. now apply mul_wide_built. Qed.
Print Assumptions C08_mul_wide.

(** Conversions between integers and booleans. *)
Theorem C08_cast :
  forall fop cp st a0 t0 t n, wf fop st -> has st a0 t0 n -> is_float t0 = false -> is_float t = false ->
  built fop st (var_cast fop cp st a0 t) t n
    (fun l x => exists a, value fop st a0 l = Some a /\
       (t <> Bool -> x = bits t (num t0 a)) /\ (t = Bool -> x = if (num t0 a =? 0)%Z then 0 else 1)).
Proof. intros. eapply cast_built; eauto using (fun (_ : store) (_ : nat) => true). Qed.
Print Assumptions C08_cast.

(** Sign transfer between integers, unless both operands are literals. *)
Theorem C08_copysign_partial :
  forall fop cp uniq st a0 a1 t n0 n1, wf fop st -> has st a0 t n0 -> has st a1 t n1 -> compat n0 n1 -> is_int t = true ->
  (cp = true -> forall x, literal_is st a0 x ->
     (forall y, ~ literal_is st a1 y) /\ fold1_ok Abs t (num t x) /\ fold1_ok Neg t (Z.abs (num t x))) ->
  built fop st (var_copysign fop cp uniq st a0 a1) t (N.max n0 n1)
    (lanes2 fop st a0 t a1 t (fun a b => Some (if (b <? 0)%Z then - Z.abs a else Z.abs a)%Z) t).
Proof. intros. now apply copysign_built. Qed.
Print Assumptions C08_copysign_partial.
(** Two integer literals abort the process. *)
Theorem C08_copysign_refuted :
  exists fop uniq st a0 a1, wf fop st /\ has st a0 I32 1 /\ has st a1 I32 1 /\ var_copysign fop true uniq st a0 a1 = Abort.
Proof.
  exists (fun _ _ _ _ => 0), (fun _ _ => true), [mkVar I32 1 (Lit 5); mkVar I32 1 (Lit 0xffffffff)], 1%nat, 2%nat.
  split; [|split; [eexists; reflexivity|split; [eexists; reflexivity|reflexivity]]].
  apply (wf_input _ [mkVar I32 1 (Lit 5)]); [apply (wf_input _ []); [apply wf_nil| |]| |]; cbn; lia.
Qed.
Print Assumptions C08_copysign_refuted.

(** A store with a literal, an array, a counter and a scalar array. *)
Definition f0 : kind -> ty -> list ty -> list N -> N := fun _ _ _ _ => 0.
Definition demo : store :=
  [mkVar U32 4 (Lit 8); mkVar U32 4 (Arr (fun l => 0xfffffff0 + l mod 16)); mkVar U32 4 Ctr; mkVar U32 1 (Arr (fun _ => 7))].
Example C08_ex_wf : wf f0 demo.
Proof.
  apply (wf_input _ [mkVar U32 4 (Lit 8); mkVar U32 4 (Arr (fun l => 0xfffffff0 + l mod 16)); mkVar U32 4 Ctr]);
    [apply (wf_input _ [mkVar U32 4 (Lit 8); mkVar U32 4 (Arr (fun l => 0xfffffff0 + l mod 16))]);
     [apply (wf_input _ [mkVar U32 4 (Lit 8)]); [apply (wf_input _ []); [apply wf_nil| |]| |]| |]| |]; cbn [width]; try lia.
Qed.
Definition all_lanes (r : out (store * nat)) : option (list (option N)) :=
  match r with Ok (st, h) => Some (map (value f0 st h) [0; 1; 2; 3]) | _ => None end.
Definition desc_of (r : out (store * nat)) : option (kind + N) :=
  match r with
  | Ok (st, h) => match get st h with
                  | Some v => match v_desc v with Op k _ => Some (inl k) | Lit x => Some (inr x) | _ => None end
                  | None => None end
  | _ => None end.
(** Multiplication by the literal 8 becomes a shift. *)
Example C08_ex_mul :
  all_lanes (var_mul f0 true false (fun _ _ => false) demo 1 3) = Some [Some 0; Some 8; Some 16; Some 24] /\
  desc_of (var_mul f0 true false (fun _ _ => false) demo 1 3) = Some (inl Shl) /\
  desc_of (var_mul f0 false false (fun _ _ => false) demo 1 3) = Some (inl Mul) /\
  all_lanes (var_mul f0 false false (fun _ _ => false) demo 1 3) = Some [Some 0; Some 8; Some 16; Some 24].
Proof. vm_compute. auto. Qed.
Example C08_ex_wrap : all_lanes (var_add f0 true (fun _ _ => false) demo 2 2) = Some [Some 0xffffffe0; Some 0xffffffe2; Some 0xffffffe4; Some 0xffffffe6] /\
  all_lanes (var_mul f0 true false (fun _ _ => false) demo 2 2)
  = Some [Some 256; Some 225; Some 196; Some 169].
Proof. vm_compute. auto. Qed.
Example C08_ex_mod : all_lanes (var_mod true (fun _ _ => false) demo 2 1) = Some [Some 0; Some 1; Some 2; Some 3] /\
  desc_of (var_mod true (fun _ _ => false) demo 2 1) = Some (inl And) /\
  all_lanes (var_div f0 true false (fun _ _ => false) demo 2 4) = Some [Some 613566754; Some 613566754; Some 613566754; Some 613566754].
Proof. vm_compute. auto. Qed.
Example C08_ex_fma : all_lanes (var_fma f0 true false (fun _ _ => false) demo 1 3 4) = Some [Some 7; Some 15; Some 23; Some 31].
Proof. vm_compute. auto. Qed.
Example C08_ex_literals :
  desc_of (var_sub f0 true (fun _ _ => false) [mkVar I8 1 (Lit 0x80); mkVar I8 1 (Lit 1)] 1 2) = Some (inr 0x7f) /\
  fold2_ok Sub I8 (num I8 0x80) (num I8 1).
Proof. vm_compute. split; [reflexivity|]. intros _. split; discriminate || reflexivity. Qed.
Example C08_ex_cast :
  all_lanes (var_cast f0 true [mkVar I8 4 (Arr (fun l => 0xfe + l mod 2))] 1 U16) = Some [Some 0xfffe; Some 0xffff; Some 0xfffe; Some 0xffff].
Proof. vm_compute. auto. Qed.

(** ** C09 *)

(** [=], [<], [<=], [>], [>=] for all types and all operands, including NaNs and
    identical handles; [<>] for types other than floating point. *)
Theorem C09_compare_partial :
  forall fop cp k B st a0 a1 t n0 n1, wf fop st -> has st a0 t n0 -> has st a1 t n1 -> compat n0 n1 ->
  In (k, B) [(Eq, var_eq cp); (Lt, var_lt cp); (Le, var_le cp); (Gt, var_gt cp); (Ge, var_ge cp)] \/
  (k, B) = (Neq, var_neq cp) /\ is_float t = false ->
  built fop st (B st a0 a1) Bool (N.max n0 n1)
    (fun l x => exists a b, value fop st a0 l = Some a /\ value fop st a1 l = Some b /\
                  x = if truth k (ordering t a b) then 1 else 0).
Proof. intros. eapply compare_built; eauto using (fun (_ : store) (_ : nat) => true). Qed.
Print Assumptions C09_compare_partial.

(** x <> x is folded to false even when x is a NaN. *)
Theorem C09_neq_self_refuted :
  exists fop st h n a, wf fop st /\ has st h F32 n /\ value fop st h 0 = Some a /\ is_nan F32 a = true /\
    exists st' r, var_neq true st h h = Ok (st', r) /\ value fop st' r 0 = Some 0 /\ truth Neq (ordering F32 a a) = true.
Proof.
  exists f0, [mkVar F32 2 (Arr (fun _ => 0x7fc00000))], 1%nat, 2, 0x7fc00000.
  split; [apply (wf_input _ []); [apply wf_nil|lia|cbn; intros; lia]|].
  split; [eexists; reflexivity|]. split; [reflexivity|]. split; [reflexivity|].
  eexists _, _. split; [reflexivity|]. split; vm_compute; reflexivity.
Qed.
Print Assumptions C09_neq_self_refuted.
(** The generated code (fcmp one) yields false for NaN <> 1, literals yield true. *)
Theorem C09_neq_nan_refuted :
  exists fop st h1 h2 l1 l2, wf fop st /\
    (forall l, value fop st h1 l = value fop st l1 l /\ value fop st h2 l = value fop st l2 l) /\
    exists st1 r1 st2 r2, var_neq true st h1 h2 = Ok (st1, r1) /\ var_neq true st l1 l2 = Ok (st2, r2) /\
      value fop st1 r1 0 = Some 0 /\ value fop st2 r2 0 = Some 1.
Proof.
  set (s := [mkVar F32 1 (Arr (fun _ => 0x7fc00000)); mkVar F32 1 (Arr (fun _ => 0x3f800000));
             mkVar F32 1 (Lit 0x7fc00000); mkVar F32 1 (Lit 0x3f800000)]).
  exists f0, s, 1%nat, 2%nat, 3%nat, 4%nat. split.
  { apply (wf_input _ [mkVar F32 1 (Arr (fun _ => 0x7fc00000)); mkVar F32 1 (Arr (fun _ => 0x3f800000)); mkVar F32 1 (Lit 0x7fc00000)]);
    [apply (wf_input _ [mkVar F32 1 (Arr (fun _ => 0x7fc00000)); mkVar F32 1 (Arr (fun _ => 0x3f800000))]);
     [apply (wf_input _ [mkVar F32 1 (Arr (fun _ => 0x7fc00000))]); [apply (wf_input _ []); [apply wf_nil| |]| |]| |]| |]; cbn [width]; intros; lia. }
  split; [split; vm_compute; reflexivity|].
  eexists _, _, _, _. split; [reflexivity|]. split; [reflexivity|]. split; vm_compute; reflexivity.
Qed.
Print Assumptions C09_neq_nan_refuted.
Example C09_ex :
  all_lanes (var_lt true demo 3 4) = Some [Some 1; Some 1; Some 1; Some 1] /\
  all_lanes (var_ge true demo 3 4) = Some [Some 0; Some 0; Some 0; Some 0] /\
  all_lanes (var_eq true [mkVar F32 4 (Arr (fun l => if l =? 2 then 0x7fc00000 else 0x80000000)); mkVar F32 1 (Lit 0)] 1 2)
  = Some [Some 1; Some 1; Some 0; Some 1].
Proof. vm_compute. auto. Qed.

(** ** C10 *)
Theorem C10_bits :
  forall fop cp k B st a0 t n, wf fop st -> has st a0 t n -> is_int t = true ->
  In (k, B) [(Popc, var_popc cp); (Clz, var_clz cp); (Brev, var_brev cp); (Ctz, var_ctz cp)] ->
  built fop st (B st a0) t n (fun l x => exists a, value fop st a0 l = Some a /\ bit_fact k (width t) a x) /\
  forall l a, value fop st a0 l = Some a -> exists x, bit_fact k (width t) a x.
Proof. intros. eapply bits_built; eauto using (fun (_ : store) (_ : nat) => true). Qed.
Print Assumptions C10_bits.
(** Upper half of the product; 8- and 16-bit literals are rejected. *)
Theorem C10_mul_hi_partial :
  forall fop cp uniq st a0 a1 t n0 n1, wf fop st -> has st a0 t n0 -> has st a1 t n1 -> compat n0 n1 -> is_int t = true ->
  (cp = true -> forall x y, literal_is st a0 x -> literal_is st a1 y -> 32 <= width t) ->
  built fop st (var_mul_hi cp uniq st a0 a1) t (N.max n0 n1) (lanes2 fop st a0 t a1 t (spec2 MulHi t) t).
Proof. intros. now apply mul_hi_built. Qed.
Print Assumptions C10_mul_hi_partial.
Theorem C10_mul_hi_refuted :
  exists fop uniq st a0 a1, wf fop st /\ has st a0 U8 1 /\ has st a1 U8 1 /\ var_mul_hi true uniq st a0 a1 = Abort.
Proof.
  exists f0, (fun _ _ => true), [mkVar U8 1 (Lit 200); mkVar U8 1 (Lit 100)], 1%nat, 2%nat.
  split; [|split; [eexists; reflexivity|split; [eexists; reflexivity|reflexivity]]].
  apply (wf_input _ [mkVar U8 1 (Lit 200)]); [apply (wf_input _ []); [apply wf_nil| |]| |]; cbn; lia.
Qed.
Print Assumptions C10_mul_hi_refuted.
Example C10_ex :
  desc_of (var_popc true [mkVar I16 1 (Lit 0xf0f1)] 1) = Some (inr 9) /\
  desc_of (var_clz true [mkVar U8 1 (Lit 0x13)] 1) = Some (inr 3) /\
  desc_of (var_ctz true [mkVar U64 1 (Lit 0x1300000000)] 1) = Some (inr 32) /\
  desc_of (var_ctz true [mkVar U32 1 (Lit 0)] 1) = Some (inr 32) /\
  desc_of (var_brev true [mkVar U8 1 (Lit 0x13)] 1) = Some (inr 0xc8) /\
  desc_of (var_mul_hi true (fun _ _ => true) [mkVar I32 1 (Lit 0xffffffff); mkVar I32 1 (Lit 0x7fffffff)] 1 2) = Some (inr 0xffffffff) /\
  all_lanes (var_popc true demo 3) = Some [Some 0; Some 1; Some 1; Some 2].
Proof. vm_compute. auto 10. Qed.

(** ** C11 *)

(** Folding two literals is undefined behaviour exactly when the exact result does
    not fit the signed type the C++ compiler computes in, or a shift is too wide. *)
Theorem C11_binary_iff :
  forall fop cp fast uniq k B st a0 a1 t n0 n1 x y, cp = true -> wf fop st -> has st a0 t n0 -> has st a1 t n1 -> compat n0 n1 ->
  literal_is st a0 x -> literal_is st a1 y -> is_int t = true ->
  In (k, B) [(Add, var_add fop cp uniq); (Sub, var_sub fop cp uniq); (Mul, var_mul fop cp fast uniq);
             (Div, var_div fop cp fast uniq); (Mod, var_mod cp uniq); (Min, var_min cp uniq); (Max, var_max cp uniq);
             (Shl, var_shl cp uniq); (Shr, var_shr cp uniq); (And, var_and cp uniq); (Or, var_or cp uniq); (Xor, var_xor cp uniq)] ->
  (B st a0 a1 = Ub <-> ~ fold2_ok k t (num t x) (num t y)).
Proof. exact fold2_ub. Qed.
Print Assumptions C11_binary_iff.
Theorem C11_unary_iff :
  forall fop cp k B st a0 t n x, cp = true -> wf fop st -> has st a0 t n -> literal_is st a0 x -> is_int t = true ->
  In (k, B) [(Neg, var_neg fop cp); (Not, var_not cp); (Abs, var_abs fop cp); (Popc, var_popc cp); (Clz, var_clz cp);
             (Brev, var_brev cp); (Ctz, var_ctz cp)] ->
  (B st a0 = Ub <-> ~ fold1_ok k t (num t x)).
Proof. exact (fun fop cp => fold1_ub fop cp (fun _ _ => true)). Qed.
Print Assumptions C11_unary_iff.
(** INT_MAX + 1, and 65535 * 65535 in 16 unsigned bits. *)
Theorem C11_folding_refuted :
  exists fop uniq, forall fast,
  (exists st, wf fop st /\ has st 1 I32 1 /\ has st 2 I32 1 /\ var_add fop true uniq st 1 2 = Ub) /\
  (exists st, wf fop st /\ has st 1 U16 1 /\ has st 2 U16 1 /\ var_mul fop true fast uniq st 1 2 = Ub).
Proof.
  exists f0, (fun _ _ => true). intros fast. split.
  - exists [mkVar I32 1 (Lit 0x7fffffff); mkVar I32 1 (Lit 1)].
    split; [|split; [eexists; reflexivity|split; [eexists; reflexivity|vm_compute; reflexivity]]].
    apply (wf_input _ [mkVar I32 1 (Lit 0x7fffffff)]); [apply (wf_input _ []); [apply wf_nil| |]| |]; cbn; lia.
  - exists [mkVar U16 1 (Lit 0xffff); mkVar U16 1 (Lit 0xffff)].
    split; [|split; [eexists; reflexivity|split; [eexists; reflexivity|vm_compute; reflexivity]]].
    apply (wf_input _ [mkVar U16 1 (Lit 0xffff)]); [apply (wf_input _ []); [apply wf_nil| |]| |]; cbn; lia.
Qed.
Print Assumptions C11_folding_refuted.
Example C11_ex :
  desc_of (var_div f0 true false (fun _ _ => true) [mkVar I32 1 (Lit 0x80000000); mkVar I32 1 (Lit 0xffffffff)] 1 2) = Some (inr 0x80000000) /\
  desc_of (var_div f0 true false (fun _ _ => true) [mkVar I32 1 (Lit 5); mkVar I32 1 (Lit 0)] 1 2) = Some (inr 0xffffffff) /\
  desc_of (var_mod true (fun _ _ => true) [mkVar U8 1 (Lit 5); mkVar U8 1 (Lit 0)] 1 2) = Some (inr 0xff) /\
  var_shl true (fun _ _ => true) [mkVar U32 1 (Lit 5); mkVar U32 1 (Lit 32)] 1 2 = Ub.
Proof. vm_compute. auto. Qed.

(** ** C15 *)
Theorem C15_select :
  forall fop cp uniq st a0 a1 a2 t n0 n1 n2, wf fop st -> has st a0 Bool n0 -> has st a1 t n1 -> has st a2 t n2 ->
  compat n0 n1 -> compat n0 n2 -> compat n1 n2 ->
  built fop st (var_select cp uniq st a0 a1 a2) t (N.max n0 (N.max n1 n2))
    (fun l x => exists m a b, value fop st a0 l = Some m /\ value fop st a1 l = Some a /\ value fop st a2 l = Some b /\
                  (m = 1 -> x = a) /\ (m = 0 -> x = b)).
Proof. intros. now apply select_built. Qed.
Print Assumptions C15_select.
Example C15_ex :
  all_lanes (var_select true (fun _ _ => false) (demo ++ [mkVar Bool 4 (Arr (fun l => l mod 2))]) 5 3 4)
  = Some [Some 7; Some 1; Some 7; Some 3] /\
  all_lanes (var_select true (fun _ _ => true) (demo ++ [mkVar Bool 1 (Lit 1)]) 5 4 3)
  = Some [Some 7; Some 7; Some 7; Some 7].
Proof. vm_compute. auto. Qed.

(** ** C56 *)

(** Operands of incompatible sizes are rejected by every builder. *)
Theorem C56_sizes :
  forall fop cp fast uniq B st a0 a1 t0 t1 n0 n1, wf fop st -> has st a0 t0 n0 -> has st a1 t1 n1 -> ~ compat n0 n1 ->
  In B [var_add fop cp uniq; var_sub fop cp uniq; var_mul fop cp fast uniq; var_div fop cp fast uniq; var_mod cp uniq; var_min cp uniq; var_max cp uniq;
        var_shl cp uniq; var_shr cp uniq; var_and cp uniq; var_or cp uniq; var_xor cp uniq; var_mul_hi cp uniq; var_mul_wide fop cp fast uniq;
        var_copysign fop cp uniq; var_eq cp; var_neq cp; var_lt cp; var_le cp; var_gt cp; var_ge cp] ->
  B st a0 a1 = Raise.
Proof. intros. eapply sizes_raise; eauto. Qed.
Print Assumptions C56_sizes.
(** Two empty operands give an empty result ... *)
Theorem C56_empty_partial :
  forall fop cp fast uniq B st,
  In B [var_add fop cp uniq; var_sub fop cp uniq; var_mul fop cp fast uniq; var_div fop cp fast uniq; var_min cp uniq; var_max cp uniq;
        var_shl cp uniq; var_shr cp uniq; var_and cp uniq; var_or cp uniq; var_xor cp uniq; var_mul_hi cp uniq;
        var_copysign fop cp uniq; var_eq cp; var_neq cp; var_lt cp; var_le cp; var_gt cp; var_ge cp] ->
  B st 0%nat 0%nat = Ok (st, 0%nat).
Proof. intros fop cp fast uniq B st K. repeat (destruct K as [<-|K]; [reflexivity|]). destruct K. Qed.
Print Assumptions C56_empty_partial.
(** ... but not for the remainder and the selection, which dereference a null
    pointer, and for the wide product, which raises. *)
Theorem C56_empty_refuted :
  exists h, forall fop cp fast uniq st, get st h = None /\
    var_mod cp uniq st h h = Ub /\ var_select cp uniq st h h h = Ub /\ var_mul_wide fop cp fast uniq st h h = Raise.
Proof. exists 0%nat. intros. repeat split. Qed.
Print Assumptions C56_empty_refuted.
Example C56_ex : var_add f0 true (fun _ _ => false) [mkVar U32 4 Ctr; mkVar U32 3 Ctr] 1 2 = Raise /\ ~ compat 4 3.
Proof. split; [reflexivity|]. unfold compat. lia. Qed.
