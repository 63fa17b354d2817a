(** C73: labels and callbacks belong to one variable and last as long as it does *)
From Verif Require Import Base Lab_Model Lab_Spec Lab_Inv Lab_Free Lab_Steps Lab_Value.
Local Open Scope N_scope.

(** Every legal history of creating, acquiring, releasing, labelling, observing, of
    callbacks and prefixes has the effects that the client expects: labels and callbacks
    are those of one variable; a release removes exactly what is out of reach and calls
    each callback of a removed variable once, before those of its operands; a label for
    a variable with other owners goes to a copy. *)
Theorem C73_histories l : served initial start l.
Proof. exact (served_ok l initial start CI_initial). Qed.
Print Assumptions C73_histories.

(** Labelling preserves the values of all variables, and the result has that of the
    argument. *)
Theorem C73_values c i t j c' : effect c (SetLabel i t) (RVar j) c' ->
  (forall x, holds (c_att c) i x -> holds (c_att c') j x) /\
  (forall k x, holds (c_att c) k x -> holds (c_att c') k x).
Proof. exact (label_values c i t j c'). Qed.
Print Assumptions C73_values.

(** Two operands with one user: the release of the user calls its callback, then those
    of its operands; a record is used again without its old contents. *)
Example C73_example :
  let a := [97] in let b := [98] in let p := [112] in
  match run initial
    [New 5 Lit []; New 6 Mem []; New 7 Node [0%nat; 1%nat];
     SetCallback 0 (Some 100); SetCallback 1 (Some 101); SetCallback 2 (Some 102);
     Push p; Push []; SetLabel 0 (One (Some a)); SetLabel 2 (One (Some b)); Label 2; Groups 2; Label 3; Groups 3; Prefix; Pop; Pop; Pop;
     Dec 0; Dec 1; Dec 3; Dec 2; Dec 2; New 9 Mem []; SetCallback 0 None; Label 0] with
  | None => None
  | Some (s, rs) => Some (skipn 8 rs, log s, map (fun o => match o with Some _ => true | None => false end) (vars s))
  end
  = Some ([RVar 3; RVar 2; RText (Some b); RPath [p; []]; RText (Some a); RPath [p; []]; RText (Some (p ++ [47; 47])); RNone; RNone; RErr;
           RNone; RNone; RNone; RNone; RNone; RVar 0; RNone; RText None],
          [(2%nat, 102); (0%nat, 100); (1%nat, 101)], [true; false; false; false]).
Proof. vm_compute. reflexivity. Qed.

(** The copy of a computed variable refers to the original, which therefore stays. *)
Example C73_copy_example :
  match run initial [New 5 Mem []; New 7 Node [0%nat]; Dec 0; Inc 1; SetCallback 1 (Some 1);
                     SetLabel 1 (Many [[49]; [50]]); Dec 1; Dec 1; Label 2] with
  | None => None
  | Some (s, rs) => Some (skipn 5 rs, log s, match get s 1 with Some _ => true | None => false end, match get s 2 with Some v => Some (x_deps v) | None => None end)
  end
  = Some ([RVar 2; RNone; RNone; RText (Some [91; 49; 93; 91; 50; 93])], [], true, Some [1%nat]).
Proof. vm_compute. reflexivity. Qed.

(** Components that are names are put in brackets like numbers: api.cpp:1080 tests
    [s[0] >= '0' || s[1] <= '9'] instead of a digit. *)
Theorem C73_join_refuted : exists l s t,
  Forall name l /\ run initial [New 5 Lit []; SetLabel 0 (Many l); Label 0] = Some (s, [RVar 0; RVar 0; RText (Some t)]) /\
  t <> spelled true l.
Proof.
  exists [[120; 121]; [122]]. eexists _, _. split; [|split; [vm_compute; reflexivity|vm_compute; discriminate]].
  repeat constructor; cbn; lia.
Qed.
Print Assumptions C73_join_refuted.
Example C73_join_example : spelled true [[120; 121]; [122]; [51]] = [120; 121; 46; 122; 91; 51; 93].
Proof. reflexivity. Qed.

(** For an empty component, the same test reads behind the end of the string. *)
Theorem C73_empty_refuted : exists l s, Forall name l /\ step s (SetLabel 0 (Many l)) = Abort /\
  exists r, run initial [New 5 Lit []] = Some (s, r).
Proof.
  exists [[]; [49]]. eexists. split; [repeat constructor; cbn; lia|]. split; cycle 1; [eexists; vm_compute; reflexivity|].
  vm_compute. reflexivity.
Qed.
Print Assumptions C73_empty_refuted.

(** An invalid label for a variable with other owners raises an exception, but the copy
    made for it is never released: all references that the client was given are gone,
    and a variable remains. *)
Theorem C73_leak_refuted : exists t s, ~ name t /\
  run initial [New 5 Lit []; Inc 0; SetLabel 0 (One (Some t)); Dec 0; Dec 0] = Some (s, [RVar 0; RNone; RErr; RNone; RNone]) /\
  exists i, get s i <> None.
Proof.
  exists [47]. eexists. split; [intros [_ H]; apply H; now left|]. split; [vm_compute; reflexivity|].
  exists 1%nat. vm_compute. discriminate.
Qed.
Print Assumptions C73_leak_refuted.

(** A variable created under a prefix may be shown under another one: that of an equal
    variable created earlier. *)
Theorem C73_prefix_refuted : exists p q s r g,
  run initial [Push p; New 5 Lit []; Pop; Push q; New 5 Lit []; Groups 0] = Some (s, r ++ [RVar 0; RPath g]) /\ g <> [q].
Proof.
  exists [112], [113]. eexists _, [RNone; RVar 0; RNone; RNone], [[112]]. split; [vm_compute; reflexivity|discriminate].
Qed.
Print Assumptions C73_prefix_refuted.
