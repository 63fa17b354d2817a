(** C59: floating point arithmetic.  C08: division of integer literals. *)
From Verif Require Import Base Op_Model Op_Spec Op_Store Op_FSpec Op_Ieee Op_IeeeProofs Op_Float Op_Div Op_Built.
Local Open Scope N_scope.

(** ** C08 *)

(** Division and remainder of two integer literals are defined for all operands: a
    zero divisor sets every bit, and the minimum over -1 wraps. *)
Theorem C08_literal_division :
  forall fop cp fast uniq k B st a0 a1 t n0 n1 x y,
  wf fop st -> has st a0 t n0 -> has st a1 t n1 -> compat n0 n1 -> is_int t = true -> cp = true ->
  In (k, B) [(Div, var_div fop cp fast uniq); (Mod, var_mod cp uniq)] -> literal_is st a0 x -> literal_is st a1 y ->
  built fop st (B st a0 a1) t (N.max n0 n1) (fun _ r => r = bits t (literal_div k (num t x) (num t y))).
Proof. exact literals_div. Qed.
Print Assumptions C08_literal_division.
Definition lits8 : store := [mkVar I8 1 (Lit 0x80); mkVar I8 1 (Lit 0xff); mkVar I8 1 (Lit 0)].
Definition lit_result (r : out (store * nat)) : option N :=
  match r with
  | Ok (st, h) => match get st h with Some v => match v_desc v with Lit x => Some x | _ => None end | None => None end
  | _ => None
  end.
Example C08_ex_literal_division :
  let none := fun _ _ => false in let f0 := fun _ _ _ _ => 0 in
  lit_result (var_div f0 true false none lits8 1 2) = Some 0x80 /\ lit_result (var_mod true none lits8 1 2) = Some 0 /\
  lit_result (var_div f0 true false none lits8 1 3) = Some 0xff /\ lit_result (var_mod true none lits8 1 3) = Some 0xff /\
  literal_div Div (-128) (-1) = 128%Z /\ bits I8 128 = 0x80.
Proof. vm_compute. auto 6. Qed.

(** ** C59 *)

(** [fop] is any arithmetic with the laws of [Op_FSpec]; IEEE 754 arithmetic with
    rounding to nearest even is one for each of the three formats. *)
Theorem C59_ieee : forall t, is_float t = true -> laws machine t /\ fma_laws machine t.
Proof. intros t F. exact (conj (machine_laws t F) (machine_fma t F)). Qed.
Print Assumptions C59_ieee.

(** Without fast math: sums, differences and products hold, in every lane without NaN
    operands (and, for sums and differences, without two zeros), the bits that the
    machine computes, whatever simplification was applied. *)
Theorem C59_binary :
  forall fop cp uniq k B st a0 a1 t n0 n1,
  wf fop st -> has st a0 t n0 -> has st a1 t n1 -> compat n0 n1 -> is_float t = true -> laws fop t ->
  In (k, B) [(Add, var_add fop cp uniq); (Sub, var_sub fop cp uniq); (Mul, var_mul fop cp false uniq)] ->
  built fop st (B st a0 a1) t (N.max n0 n1)
    (fun l x => exists a b, value fop st a0 l = Some a /\ value fop st a1 l = Some b /\
                  claimed2 k t a b = true /\ x = op2 fop k t a b).
Proof. intros. eapply float_built with (fast := false); eauto. Qed.
Print Assumptions C59_binary.

(** Quotients: unless a value is divided by a literal in single or double precision. *)
Theorem C59_division_partial :
  forall fop cp fast uniq st a0 a1 t n0 n1,
  wf fop st -> has st a0 t n0 -> has st a1 t n1 -> compat n0 n1 -> is_float t = true -> laws fop t ->
  t = F16 \/ cp = false \/ (exists x, literal_is st a0 x) \/ (forall y, ~ literal_is st a1 y) ->
  built fop st (var_div fop cp fast uniq st a0 a1) t (N.max n0 n1)
    (fun l x => exists a b, value fop st a0 l = Some a /\ value fop st a1 l = Some b /\
                  claimed2 Div t a b = true /\ x = op2 fop Div t a b).
Proof. intros. eapply fdiv_built; eauto. Qed.
Print Assumptions C59_division_partial.

(** In that case the value is multiplied by the rounded reciprocal. *)
Theorem C59_reciprocal :
  forall fop uniq st a0 a1 t n0 n1 y,
  wf fop st -> has st a0 t n0 -> has st a1 t n1 -> compat n0 n1 -> t = F32 \/ t = F64 -> laws fop t ->
  (forall x, ~ literal_is st a0 x) -> literal_is st a1 y ->
  let r := op2 fop Div t (type_one t) y in
  built fop st (var_div fop true false uniq st a0 a1) t (N.max n0 n1)
    (fun l x => exists a, value fop st a0 l = Some a /\ is_nan t a = false /\ is_nan t r = false /\ x = op2 fop Mul t a r).
Proof. intros. eapply frcp_built; eauto. Qed.
Print Assumptions C59_reciprocal.

(** Fused multiply-add *)
Theorem C59_fma :
  forall fop cp uniq st a0 a1 a2 t n0 n1 n2,
  wf fop st -> has st a0 t n0 -> has st a1 t n1 -> has st a2 t n2 ->
  compat n0 n1 -> compat n0 n2 -> compat n1 n2 -> is_float t = true -> laws fop t -> fma_laws fop t ->
  built fop st (var_fma fop cp false uniq st a0 a1 a2) t (N.max n0 (N.max n1 n2))
    (fun l x => exists a b c, value fop st a0 l = Some a /\ value fop st a1 l = Some b /\ value fop st a2 l = Some c /\
                  claimed3 fop t a b c = true /\ x = op3 fop t a b c).
Proof. intros. eapply ffma_built with (fast := false); eauto. Qed.
Print Assumptions C59_fma.

(** Single precision arrays 5, -0 (all lanes); literals +0, 3, 1, -0. *)
Definition floats : store :=
  [mkVar F32 2 (Arr (fun _ => 0x40a00000)); mkVar F32 2 (Arr (fun _ => 0x80000000));
   mkVar F32 1 (Lit 0); mkVar F32 1 (Lit 0x40400000); mkVar F32 1 (Lit 0x3f800000); mkVar F32 1 (Lit 0x80000000)].
Lemma floats_wf : forall fop, wf fop floats.
Proof.
  intros fop. unfold floats.
  apply (wf_input _ [_; _; _; _; _]); [apply (wf_input _ [_; _; _; _]); [apply (wf_input _ [_; _; _]); [apply (wf_input _ [_; _]);
    [apply (wf_input _ [_]); [apply (wf_input _ []); [apply wf_nil| |]| |]| |]| |]| |]| |]; cbn [width v_size v_desc v_ty]; intros; lia.
Qed.
Definition lane0 (r : out (store * nat)) : option N :=
  match r with Ok (st, h) => value machine st h 0 | _ => None end.

(** -0 + (+0) is +0 in IEEE arithmetic; adding the literal returns -0. *)
Theorem C59_zero_sum_refuted :
  exists st a0 a1 a b x, wf machine st /\ has st a0 F32 2 /\ has st a1 F32 1 /\
    value machine st a0 0 = Some a /\ value machine st a1 0 = Some b /\
    lane0 (var_add machine true (fun _ _ => false) st a0 a1) = Some x /\
    lane0 (var_add machine false (fun _ _ => false) st a0 a1) = Some (op2 machine Add F32 a b) /\ x <> op2 machine Add F32 a b.
Proof.
  exists floats, 2%nat, 3%nat, 0x80000000, 0, 0x80000000. split; [apply floats_wf|]. split; [eexists; reflexivity|]. split; [eexists; reflexivity|].
  vm_compute. repeat split; discriminate.
Qed.
Print Assumptions C59_zero_sum_refuted.
(** 5 / 3 with a literal 3 differs from the IEEE quotient in the last bit. *)
Theorem C59_division_refuted :
  exists st a0 a1 a b x, wf machine st /\ has st a0 F32 2 /\ has st a1 F32 1 /\
    value machine st a0 0 = Some a /\ value machine st a1 0 = Some b /\ claimed2 Div F32 a b = true /\
    lane0 (var_div machine true false (fun _ _ => false) st a0 a1) = Some x /\
    lane0 (var_div machine false false (fun _ _ => false) st a0 a1) = Some (op2 machine Div F32 a b) /\ x <> op2 machine Div F32 a b.
Proof.
  exists floats, 1%nat, 4%nat, 0x40a00000, 0x40400000, 0x3fd55556. split; [apply floats_wf|]. split; [eexists; reflexivity|]. split; [eexists; reflexivity|].
  vm_compute. repeat split; discriminate.
Qed.
Print Assumptions C59_division_refuted.
Example C59_ex :
  let none := fun _ _ => false in
  lane0 (var_add machine true none floats 1 3) = Some 0x40a00000 /\ (* 5 + 0 *)
  lane0 (var_sub machine true none floats 1 4) = Some 0x40000000 /\ (* 5 - 3 *)
  lane0 (var_mul machine true false none floats 1 4) = Some 0x41700000 /\ (* 5 * 3 *)
  lane0 (var_mul machine true false none floats 5 1) = Some 0x40a00000 /\ (* 1 * 5 *)
  lane0 (var_fma machine true false none floats 1 5 4) = Some 0x41000000 /\ (* 5 * 1 + 3 *)
  lane0 (var_fma machine true false none floats 3 6 1) = Some 0x40a00000 /\ (* 0 * -0 + 5 *)
  lane0 (var_div machine true false none floats 4 1) = Some 0x3f19999a. (* 3 / 5 *)
Proof. vm_compute. auto 8. Qed.
