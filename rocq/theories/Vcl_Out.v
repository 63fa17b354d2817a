(** Statements of the main results; outputs replaced by literals. *)
From Verif Require Import Base Lay_Model Lay_Spec Vcl_Model Vcl_Spec Vcl_Gen Vcl_Lane Vcl_Vec Vcl_Calls Vcl_Table.
Local Open Scope N_scope.

Lemma generates : forall llvm alignment cap (bk : N -> N) (data : N -> list N) cs,
  backend_ok llvm alignment cap -> (forall v, bk v < 8 /\ N.of_nat (length (data v)) = bsize (bk v)) ->
  Forall (fun c => cost (caps_of bk c) + 128 < 2 ^ 32) cs -> calls_wf cs ->
  exists is, build llvm alignment cap bk 0 cs = Some is /\
    forall e, wf cs 0 0 e -> exists t, gen is 0 (fun c => Some (TVar c)) e = Some t.
Proof.
  intros llvm alignment cap bk data cs B D C W. destruct (build_ex llvm alignment cap bk data cs B D C W) as [is E]. exists is. split; [exact E|].
  intros e WE. eapply (gen_ex cap bk data cs D); [|exact WE|eauto]. destruct (build_inv llvm alignment cap bk data D cs 0 is E) as [L _]. rewrite L. reflexivity.
Qed.
Lemma values_merge : forall llvm alignment cap bk data opsem cs is hash mem0 lanes vars active e t fuel,
  build llvm alignment cap bk 0 cs = Some is -> gen is 0 (fun c => Some (TVar c)) e = Some t ->
  calls_wf cs -> wf cs 0 0 e -> sizes_ok llvm alignment cap bk data cs is -> live_ok cs is t ->
  hash_ok hash is -> (llvm = false -> exists l, lanes = [l]) ->
  (forall l, In l lanes -> active l = true -> exists y,
     val opsem (callee opsem cs (fun v => number (data v)) fuel) {| a_in := fun _ => None; a_self := 0; a_var := fun v => vars v l |} e = Some y) ->
  exists f, execute llvm alignment cap bk hash true data opsem lanes cs mem0 vars active e = Some f /\
    forall l, In l lanes -> active l = true ->
      val opsem (callee opsem cs (fun v => number (data v)) fuel) {| a_in := fun _ => None; a_self := 0; a_var := fun v => vars v l |} e = Some (f l).
Proof. intros. eapply execute_ok; eauto. apply keys_merge; auto. Qed.
Lemma values_nomerge : forall llvm alignment cap bk data opsem cs is hash mem0 lanes vars active e t fuel,
  build llvm alignment cap bk 0 cs = Some is -> gen is 0 (fun c => Some (TVar c)) e = Some t ->
  calls_wf cs -> wf cs 0 0 e -> sizes_ok llvm alignment cap bk data cs is -> live_ok cs is t ->
  Forall (fun c => n_inst c <> 1%nat) cs -> (llvm = false -> exists l, lanes = [l]) ->
  (forall l, In l lanes -> active l = true -> exists y,
     val opsem (callee opsem cs (fun v => number (data v)) fuel) {| a_in := fun _ => None; a_self := 0; a_var := fun v => vars v l |} e = Some y) ->
  exists f, execute llvm alignment cap bk hash false data opsem lanes cs mem0 vars active e = Some f /\
    forall l, In l lanes -> active l = true ->
      val opsem (callee opsem cs (fun v => number (data v)) fuel) {| a_in := fun _ => None; a_self := 0; a_var := fun v => vars v l |} e = Some (f l).
Proof. intros. eapply execute_ok; eauto. apply keys_nomerge; auto. Qed.
Lemma once_each : forall lanes idx l, NoDup lanes -> In l lanes ->
  filter (fun x => existsb (Nat.eqb l) (snd x)) (trace lanes (length lanes) idx) =
  if idx l =? 0 then [] else [(idx l, filter (fun l' => idx l' =? idx l) lanes)].
Proof. intros lanes idx l ND I. apply trace_ok; [exact ND|apply busy_le|exact I]. Qed.

Lemma uniform_ok : forall same c o x i os e, uniform same c o = Some x -> nth_error (k_outs c) i = Some os -> nth_error os o = Some e -> e = ELit x.
Proof.
  intros same c o x i os e U EO EE. unfold uniform in U. destruct (k_outs c) as [|os0 l] eqn:EK; [discriminate|].
  destruct (bind (nth_error os0 o) lit_of) as [x0|]; cbn [bind] in U; [|discriminate].
  destruct (same && _) eqn:EB; [|discriminate]. injection U as <-. apply andb_true_iff in EB. destruct EB as [_ EB]. rewrite forallb_forall in EB.
  specialize (EB os (nth_error_In _ _ EO)). rewrite EE in EB. destruct e; try discriminate. apply N.eqb_eq in EB. subst. reflexivity.
Qed.
Lemma call_out_ok : forall opsem cs scalar fuel same j c o self mask args x y,
  nth_error cs j = Some c ->
  val opsem (callee opsem cs scalar fuel) x (ECall j o self mask args) = Some y ->
  val opsem (callee opsem cs scalar fuel) x (call_out same j c o self mask args) = Some y.
Proof.
  intros opsem cs scalar fuel same j c o self mask args x y EC H. unfold call_out.
  destruct (if k_opt c then uniform same c o else None) as [w|] eqn:EU; [|exact H].
  assert (U : uniform same c o = Some w) by (destruct (k_opt c); [exact EU|discriminate]). clear EU.
  cbn [val] in H |- *. destruct (val _ _ x self) as [s|]; cbn [bind] in *; [|discriminate]. destruct (val _ _ x mask) as [k|]; cbn [bind] in *; [|discriminate].
  destruct (all _) as [vs|]; cbn [bind] in H; [|discriminate]. destruct (negb (k =? 0) && negb (s =? 0)); [|exact H].
  destruct fuel; cbn [callee] in H; [discriminate|]. rewrite EC in H. cbn [bind] in H.
  destruct (find_id s (k_ids c)) as [i|]; cbn [bind] in H; [|discriminate]. destruct (nth_error (k_outs c) i) as [os|] eqn:EO; cbn [bind] in H; [|discriminate].
  destruct (nth_error os o) as [e|] eqn:EE; cbn [bind] in H; [|discriminate]. rewrite (uniform_ok _ _ _ _ _ _ _ U EO EE) in H. exact H.
Qed.
