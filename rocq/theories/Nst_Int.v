(** Proofs about the formatting of numbers in [Nst_Model]. *)

From Verif Require Import Base Nst_Model Nst_Spec.

Lemma digit_loop_ok : forall k off v acc, (1 <= k)%nat -> (k <= off)%nat ->
  (0 <= v < 10 ^ Z.of_nat k)%Z ->
  exists off' ds, digit_loop off v acc = Some (off', ds ++ acc) /\
    (length ds + off' = off)%nat /\ (length ds <= k)%nat /\ numeral ds v.
Proof.
  induction k as [|k IH]; intros off v acc Hk Ho Hv; [lia|].
  destruct off as [|off]; [lia|]. cbn [digit_loop].
  destruct (Z.eqb_spec (v / 10) 0) as [E|E].
  - exists off, [(48 + v mod 10)%Z]. split; [easy|]. split; [easy|]. split; [cbn; lia|].
    split; [easy|]. split; [|split].
    + constructor; [|constructor]. unfold is_digit. lia.
    + cbn. lia.
    + cbn. intros ->. easy.
  - assert (Hk2 : (1 <= k)%nat).
    { destruct k; [|lia]. change (10 ^ Z.of_nat 1)%Z with 10%Z in Hv. lia. }
    assert (Hp : (10 ^ Z.of_nat (S k) = 10 * 10 ^ Z.of_nat k)%Z).
    { rewrite Nat2Z.inj_succ, Z.pow_succ_r by lia. easy. }
    assert (Hv2 : (0 <= v / 10 < 10 ^ Z.of_nat k)%Z).
    { split; [apply Z.div_pos; lia|]. apply Z.div_lt_upper_bound; lia. }
    destruct (IH off (v / 10)%Z ((48 + v mod 10)%Z :: acc)) as (off' & ds & D1 & D2 & D3 & D4);
      [lia|lia|exact Hv2|].
    exists off', (ds ++ [(48 + v mod 10)%Z]). rewrite <- app_assoc. split; [exact D1|].
    rewrite app_length. cbn [length]. split; [lia|]. split; [lia|].
    destruct D4 as (N1 & N2 & N3 & N4). split; [|split; [|split]].
    + destruct ds; easy.
    + apply Forall_app. split; [exact N2|]. constructor; [|constructor]. unfold is_digit. lia.
    + unfold dec_val in *. rewrite fold_left_app. cbn [fold_left]. rewrite N3. lia.
    + destruct ds as [|x ds]; [easy|]. cbn [hd app] in *. intros Hx. exfalso.
      specialize (N4 Hx). rewrite N4 in N3. cbn in N3. lia.
Qed.

Lemma int_text_ok sgn bytes v : In bytes [1; 2; 4; 8]%Z -> int_range sgn bytes v ->
  ~ (sgn = true /\ (4 <= bytes)%Z /\ v = - 2 ^ (8 * bytes - 1))%Z ->
  exists t, int_text sgn bytes v = Some t /\ (Z.of_nat (length t) <= max_size sgn bytes)%Z /\
    (if (v <? 0)%Z then exists ds, t = 45%Z :: ds /\ numeral ds (- v) else numeral t v).
Proof.
  intros Hb Hr Hm. unfold int_text.
  set (neg := (sgn && (v <? 0)%Z)%bool).
  assert (Hn : neg = (v <? 0)%Z).
  { unfold neg, int_range in *. destruct sgn; [easy|]. destruct (Z.ltb_spec v 0); lia. }
  destruct (neg && (4 <=? bytes)%Z && (v =? - 2 ^ (8 * bytes - 1))%Z)%bool eqn:E.
  { exfalso. apply Hm. apply andb_prop in E. destruct E as (E & E3). apply andb_prop in E.
    destruct E as (E1 & E2). unfold neg in E1. apply andb_prop in E1.
    split; [easy|]. split; [apply Z.leb_le in E2|apply Z.eqb_eq in E3]; lia. }
  clear E.
  set (k := Z.to_nat ((bytes * 5 + 1) / 2)).
  assert (K : (1 <= k)%nat /\ (2 ^ (8 * bytes) <= 10 ^ Z.of_nat k)%Z /\
              (2 ^ (8 * bytes - 1) < 2 ^ (8 * bytes))%Z /\
              Z.to_nat (max_size sgn bytes) = ((if sgn then 1 else 0) + k)%nat /\
              max_size sgn bytes = ((if sgn then 1 else 0) + Z.of_nat k)%Z).
  { unfold k, max_size. cbn in Hb.
    destruct Hb as [<-|[<-|[<-|[<-|[]]]]]; destruct sgn; vm_compute; repeat split; first [lia|discriminate|reflexivity]. }
  destruct K as (K1 & K2 & K3 & K4 & K5). clearbody k.
  assert (Hs : (Z.ltb v 0 = true -> sgn = true)).
  { intros H. apply Z.ltb_lt in H. unfold int_range in Hr. destruct sgn; [easy|lia]. }
  set (m := if neg then (- v)%Z else v).
  assert (Hm2 : (0 <= m < 2 ^ (8 * bytes))%Z).
  { unfold m. rewrite Hn. unfold int_range in Hr. destruct (Z.ltb_spec v 0); destruct sgn; lia. }
  rewrite (Z.mod_small m) by exact Hm2. rewrite K4.
  destruct (digit_loop_ok k ((if sgn then 1 else 0) + k) m []) as (off & ds & D1 & D2 & D3 & D4);
    [exact K1|lia|lia|].
  rewrite D1, app_nil_r. unfold m in D4. rewrite Hn in *. destruct (v <? 0)%Z.
  - rewrite (Hs eq_refl) in *. destruct off as [|off]; [lia|].
    exists (45%Z :: ds). split; [easy|]. split; [cbn [length]; lia|]. eauto.
  - exists ds. split; [easy|]. split; [|exact D4]. destruct sgn; lia.
Qed.
