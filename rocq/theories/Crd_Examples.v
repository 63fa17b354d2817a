(** A sorting function, and concrete histories. *)
From Verif Require Import Base Par_Model Registry_Model Registry_Spec Crd_Model Crd_Spec.
Local Open Scope N_scope.

Fixpoint put_in (e : ibucket) (l : list ibucket) : list ibucket :=
  match l with
  | [] => [e]
  | d :: r => if snd d <=? snd e then e :: l else d :: put_in e r
  end.
Definition isort (l : list ibucket) : list ibucket := fold_right put_in [] l.

Lemma put_in_perm e l : Permutation (put_in e l) (e :: l).
Proof.
  induction l as [|d l IH]; cbn; [reflexivity|]. destruct (snd d <=? snd e); [reflexivity|].
  rewrite IH. apply perm_swap.
Qed.

Lemma put_in_sorted e l : StronglySorted (fun e d : ibucket => snd d <= snd e) l ->
  StronglySorted (fun e d : ibucket => snd d <= snd e) (put_in e l).
Proof.
  induction 1 as [|d l S1 IH F]; cbn; [repeat constructor|]. destruct (N.leb_spec (snd d) (snd e)) as [L|L].
  - constructor; [constructor; auto|]. constructor; [exact L|]. eapply Forall_impl; [|exact F]. cbn. intros; lia.
  - constructor; [exact IH|]. eapply Permutation_Forall; [symmetry; apply put_in_perm|]. constructor; [lia|exact F].
Qed.

Lemma isort_sorts : sorts isort.
Proof.
  intros l. induction l as [|e l [P1 S1]]; cbn [isort fold_right]; [split; constructor|]. split.
  - rewrite put_in_perm. now constructor.
  - now apply put_in_sorted.
Qed.

(** What a query returns: pointer, id and contents of each bucket *)
Definition buckets_now (s : state) (t : target) (i : nat) : option (list (N * N * option (list N))) :=
  match call_reduce isort s t i with
  | Ret (s', Some a) => match blocks s' a with
                        | Some bs => Some (map (fun b => (b_ptr b, b_id b, data s' (b_index b))) bs)
                        | None => None
                        end
  | _ => None
  end.

Definition A : key := (1, 1).
Definition B : key := (1, 2).

Definition seen (os : list op) (t : target) (i : nat) :=
  match run isort init os with Ret (s, _) => buckets_now s t i | _ => None end.
