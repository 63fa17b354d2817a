From Verif Require Import Base Cac_Model Cac_Spec.
Local Open Scope N_scope.
#[local] Ltac Zify.zify_post_hook ::= idtac.

Lemma le_length : forall n x, length (le n x) = n.
Proof. induction n as [|n IH]; intros x; cbn [le length]; [reflexivity|]. now rewrite IH. Qed.
Lemma unle_le : forall n x, unle (le n x) = x mod 256 ^ N.of_nat n.
Proof.
  induction n as [|n IH]; intros x; [cbn [le unle]; rewrite N.mod_1_r; reflexivity|]. cbn [le unle]. rewrite IH, Nat2N.inj_succ, N.pow_succ_r'.
  rewrite N.mod_mul_r by (try apply N.pow_nonzero; discriminate). reflexivity.
Qed.
Lemma le_bytes : forall n x, bytes (le n x).
Proof. induction n as [|n IH]; intros x; constructor; [apply N.mod_lt; discriminate|apply IH]. Qed.
Lemma le_unle : forall l, bytes l -> le (length l) (unle l) = l.
Proof.
  induction 1 as [|b l B _ IH]; [reflexivity|]. cbn [length le unle]. rewrite (N.mul_comm 256). rewrite N.mod_add by discriminate. rewrite (N.mod_small b) by exact B.
  rewrite N.div_add by discriminate. rewrite (N.div_small b) by exact B. rewrite N.add_0_l, IH. reflexivity.
Qed.
Lemma le_nth : forall n x i, (i < n)%nat -> nth_error (le n x) i = Some (x / 256 ^ N.of_nat i mod 256).
Proof.
  induction n as [|n IH]; intros x i L; [lia|]. destruct i as [|i]; cbn [le nth_error].
  - rewrite N.div_1_r. reflexivity.
  - rewrite IH by lia. rewrite N.div_div by (try apply N.pow_nonzero; discriminate). rewrite Nat2N.inj_succ, N.pow_succ_r'. reflexivity.
Qed.
Lemma len_app : forall (A : Type) (a b : list A), len (a ++ b) = len a + len b.
Proof. intros. unfold len. rewrite app_length. lia. Qed.
Lemma len_le : forall n x, len (le n x) = N.of_nat n.
Proof. intros. unfold len. rewrite le_length. reflexivity. Qed.

Definition raw (v c s k r : N) : list N := v :: le 4 c ++ le 4 s ++ le 4 k ++ le 4 r.
Lemma raw_length : forall v c s k r, length (raw v c s k r) = 17%nat.
Proof. reflexivity. Qed.
Lemma read_back : forall v c s k r cs rest, v < 256 -> c < 2 ^ 32 -> s < 2 ^ 32 -> k < 2 ^ 32 -> r < 2 ^ 32 -> length cs = 16%nat ->
  read_header (raw v c s k r ++ cs ++ rest) = mkHeader v c s k r cs /\ skipn 33 (raw v c s k r ++ cs ++ rest) = rest.
Proof.
  intros v c s k r cs rest V C S K R L. split.
  - unfold read_header, raw.
    change (skipn 0 _) with (v :: (le 4 c ++ le 4 s ++ le 4 k ++ le 4 r) ++ cs ++ rest).
    change (firstn 1 _) with [v]. 
    change (firstn 4 (skipn 1 _)) with (le 4 c). change (firstn 4 (skipn 5 _)) with (le 4 s). change (firstn 4 (skipn 9 _)) with (le 4 k). change (firstn 4 (skipn 13 _)) with (le 4 r).
    change (skipn 17 _) with (cs ++ rest). rewrite firstn_app, L, Nat.sub_diag, firstn_O, app_nil_r, <- L, firstn_all.
    rewrite !unle_le. change (256 ^ N.of_nat 4) with (2 ^ 32). rewrite !N.mod_small by assumption. cbn [unle]. rewrite N.mul_0_r, N.add_0_r. reflexivity.
  - change (skipn 33 (raw v c s k r ++ cs ++ rest)) with (skipn 16 (cs ++ rest)). rewrite skipn_app, L, Nat.sub_diag, <- L, skipn_all. reflexivity.
Qed.
Lemma firstn_split : forall (A : Type) (l : list A) n, l = firstn n l ++ skipn n l.
Proof. intros. symmetry. apply firstn_skipn. Qed.
Lemma bytes_firstn : forall n l, bytes l -> bytes (firstn n l).
Proof. intros n l B. rewrite <- (firstn_skipn n l) in B. apply Forall_app in B. tauto. Qed.
Lemma bytes_skipn : forall n l, bytes l -> bytes (skipn n l).
Proof. intros n l B. rewrite <- (firstn_skipn n l) in B. apply Forall_app in B. tauto. Qed.
Lemma skipn_add : forall (A : Type) n m (l : list A), skipn n (skipn m l) = skipn (m + n) l.
Proof. intros A n m. induction m as [|m IH]; intros l; [reflexivity|]. destruct l; [cbn; apply skipn_nil|]. cbn. apply IH. Qed.
(** the first 17 bytes are the header without the checksum *)
Lemma header_prefix : forall f, bytes f -> 33 <= len f -> header_bytes (read_header f) = firstn 17 f.
Proof.
  intros f B L. assert (L' : (33 <= length f)%nat) by (unfold len in L; lia).
  destruct f as [|v f]; [cbn in L'; lia|]. unfold header_bytes, read_header. cbn [h_version h_compressed h_source h_kernel h_reloc].
  change (skipn 0 (v :: f)) with (v :: f). change (skipn 1 (v :: f)) with (skipn 0 f). change (skipn 5 (v :: f)) with (skipn 4 f). change (skipn 9 (v :: f)) with (skipn 8 f). change (skipn 13 (v :: f)) with (skipn 12 f). change (firstn 1 (v :: f)) with [v]. cbn [unle]. rewrite N.mul_0_r, N.add_0_r. change (firstn 17 (v :: f)) with (v :: firstn 16 f). f_equal.
  inversion B as [|x y _ B']; subst x y. cbn [length] in L'.
  assert (P : forall p, (p + 4 <= 16)%nat -> le 4 (unle (firstn 4 (skipn p f))) = firstn 4 (skipn p f)).
  { intros p Q. assert (E : length (firstn 4 (skipn p f)) = 4%nat) by (rewrite firstn_length, skipn_length; lia). rewrite <- E at 1. apply le_unle. apply bytes_firstn, bytes_skipn, B'. }
  rewrite (P 0%nat), (P 4%nat), (P 8%nat), (P 12%nat) by lia.
  assert (Q : forall p m, firstn (4 + m) (skipn p f) = firstn 4 (skipn p f) ++ firstn m (skipn (p + 4) f)).
  { intros p m. rewrite <- (skipn_add _ 4 p). generalize (skipn p f). intros l. rewrite <- (firstn_skipn 4 (firstn (4 + m) l)). rewrite firstn_firstn. replace (Nat.min 4 (4 + m)) with 4%nat by lia. f_equal.
    rewrite skipn_firstn_comm. f_equal. lia. }
  change (firstn 16 f) with (firstn (4 + 12) (skipn 0 f)). rewrite (Q 0%nat 12%nat). change (0 + 4)%nat with 4%nat. f_equal. change 12%nat with (4 + 8)%nat at 2. rewrite (Q 4%nat 8%nat). change (4 + 4)%nat with 8%nat. f_equal.
  change 8%nat with (4 + 4)%nat at 3. rewrite (Q 8%nat 4%nat). reflexivity.
Qed.

Lemma app_split : forall (A : Type) (a b x y : list A), length a = length b -> a ++ x = b ++ y -> a = b /\ x = y.
Proof.
  induction a as [|u a IH]; intros [|w b] x y L M; try discriminate L; [auto|]. cbn in M. injection M as -> M. cbn in L. injection L as L. destruct (IH b x y L M) as [-> ->]. auto.
Qed.

Section F.
Variable checksum : list N -> list N.
Variable compress : list N -> list N.
Variable decompress : list N -> N -> option (list N).
Notation load := (load checksum decompress).
Notation write := (write checksum compress).

(** What every accepted file looks like. *)
Lemma accepted : forall source f table, bytes f -> load source f table <> Rejected ->
  33 <= len f /\ hd 0 f = 6 /\ len (skipn 33 f) = unle (firstn 4 (skipn 1 f)) /\ unle (firstn 4 (skipn 5 f)) = u32 (len source) /\
  firstn 16 (skipn 17 f) = checksum (firstn 17 f ++ source ++ skipn 33 f).
Proof.
  intros source f table B A. unfold Cac_Model.load in A. destruct (N.ltb_spec (len f) 33) as [|L]; [congruence|].
  destruct (N.eqb_spec (h_version (read_header f)) version) as [V|]; cbn [negb] in A; [|congruence].
  destruct (N.eqb_spec (len f) (33 + h_compressed (read_header f))) as [C|]; cbn [negb] in A; [|congruence].
  destruct (N.eqb_spec (h_source (read_header f)) (u32 (len source))) as [S|]; cbn [negb] in A; [|congruence].
  destruct (list_eq_dec N.eq_dec (h_checksum (read_header f)) _) as [K|]; cbn [negb] in A; [|congruence]. clear A.
  assert (L' : (33 <= length f)%nat) by (unfold len in L; lia).
  assert (SK : len (skipn 33 f) = h_compressed (read_header f)) by (unfold len in *; rewrite skipn_length; lia).
  split; [exact L|]. split.
  { destruct f as [|v f]; [cbn in L'; lia|]. unfold read_header in V. cbn [h_version skipn] in V. change (firstn 1 (v :: f)) with [v] in V. cbn [unle] in V. rewrite N.mul_0_r, N.add_0_r in V. exact V. }
  split; [exact SK|]. split; [exact S|].
  change (h_checksum (read_header f)) with (firstn 16 (skipn 17 f)) in K. rewrite K at 1. unfold cache_checksum. rewrite header_prefix by assumption. do 3 f_equal.
  apply firstn_all2. rewrite <- SK. unfold len. lia.
Qed.
Lemma detects : forall source source' f f' t t', bytes f -> bytes f' -> load source f t <> Rejected -> load source' f' t' <> Rejected ->
  firstn 16 (skipn 17 f) = firstn 16 (skipn 17 f') -> (source = source' /\ f = f') \/ collides checksum (protected source f) (protected source' f').
Proof.
  intros source source' f f' t t' B B' A A' E. destruct (accepted _ _ _ B A) as (L & _ & C & _ & K), (accepted _ _ _ B' A') as (L' & _ & C' & _ & K').
  destruct (list_eq_dec N.eq_dec (firstn 17 f ++ source ++ skipn 33 f) (firstn 17 f' ++ source' ++ skipn 33 f')) as [M|M].
  - left. assert (Lf : (33 <= length f)%nat) by (unfold len in L; lia). assert (Lf' : (33 <= length f')%nat) by (unfold len in L'; lia).
    assert (H : firstn 17 f = firstn 17 f' /\ source ++ skipn 33 f = source' ++ skipn 33 f').
    { apply app_split; [rewrite !firstn_length; lia|exact M]. }
    destruct H as [H1 H2].
    assert (H3 : skipn 1 (firstn 17 f) = skipn 1 (firstn 17 f')) by congruence.
    assert (C2 : len (skipn 33 f) = len (skipn 33 f')).
    { rewrite C, C'. f_equal. rewrite !skipn_firstn_comm in H3. apply (f_equal (firstn 4)) in H3. rewrite !firstn_firstn in H3. exact H3. }
    assert (SL : length source = length source') by (apply (f_equal (@length N)) in H2; rewrite !app_length in H2; unfold len in C2; lia).
    assert (H4 : source = source' /\ skipn 33 f = skipn 33 f').
    { apply app_split; assumption. }
    destruct H4 as [-> H4]. split; [reflexivity|].
    rewrite (firstn_split _ f 17), (firstn_split _ f' 17), H1. f_equal. rewrite (firstn_split _ (skipn 17 f) 16), (firstn_split _ (skipn 17 f') 16), E. f_equal. rewrite !skipn_add. exact H4.
  - right. split; [exact M|]. unfold protected. rewrite <- K, <- K'. exact E.
Qed.

(** ** Round trip *)
Lemma words_flat : forall l rest, Forall (fun o => o < 2 ^ 64) l -> words (length l) (flat_map (le 8) l ++ rest) = l.
Proof.
  induction l as [|x l IH]; intros rest F; [reflexivity|]. inversion F as [|y z F1 F2]; subst y z. cbn [length flat_map words]. rewrite <- app_assoc.
  rewrite firstn_app, le_length, Nat.sub_diag, firstn_O, app_nil_r. rewrite firstn_all2 by (rewrite le_length; lia). rewrite skipn_app, le_length, Nat.sub_diag, skipn_all2 by (rewrite le_length; lia).
  cbn [skipn app]. rewrite IH by exact F2. rewrite unle_le. change (256 ^ N.of_nat 8) with (2 ^ 64). rewrite N.mod_small by exact F1. reflexivity.
Qed.
Lemma flat_len : forall l, len (flat_map (le 8) l) = 8 * len l.
Proof. induction l as [|x l IH]; [reflexivity|]. cbn [flat_map]. rewrite len_app, IH, len_le. unfold len. cbn [length]. lia. Qed.
Lemma padding_small : forall k, padding k < 8.
Proof. intros k. unfold padding. pose proof (N.mod_lt k 8 ltac:(discriminate)) as H. revert H. generalize (k mod 8). intros r H. destruct (N.eqb_spec r 0); lia. Qed.
Lemma poke_nth : forall l p v i, (p + length v <= length l)%nat ->
  nth_error (poke l p v) i = if (Nat.leb p i && Nat.ltb i (p + length v))%bool then nth_error v (i - p) else nth_error l i.
Proof.
  intros l p v i L. unfold poke. assert (F : length (firstn p l) = p) by (rewrite firstn_length; lia).
  destruct (Nat.leb_spec p i); cbn [andb].
  - rewrite nth_error_app2 by (rewrite F; lia). rewrite F. destruct (Nat.ltb_spec i (p + length v)).
    + rewrite nth_error_app1 by lia. reflexivity.
    + rewrite nth_error_app2 by lia. rewrite <- (firstn_skipn (p + length v) l) at 2. rewrite nth_error_app2 by (rewrite firstn_length; lia). f_equal. rewrite firstn_length. lia.
  - rewrite nth_error_app1 by (rewrite F; lia). rewrite <- (firstn_skipn p l) at 2. rewrite nth_error_app1 by (rewrite F; lia). reflexivity.
Qed.
Lemma poke_length : forall l p v, (p + length v <= length l)%nat -> length (poke l p v) = length l.
Proof. intros l p v L. unfold poke. rewrite !app_length, firstn_length, skipn_length. lia. Qed.

Lemma bytes_app : forall a b, bytes a -> bytes b -> bytes (a ++ b).
Proof. intros a b A B. unfold bytes. rewrite Forall_app. auto. Qed.
Lemma bytes_le : forall n x, bytes (le n x).
Proof. induction n as [|n IH]; intros x; [constructor|]. cbn [le]. constructor; [apply N.mod_lt; discriminate|apply IH]. Qed.
Lemma bytes_flat : forall l, bytes (flat_map (le 8) l).
Proof. induction l as [|x l IH]; [constructor|]. cbn [flat_map]. apply bytes_app; [apply bytes_le|exact IH]. Qed.
Lemma bytes_zero : forall n, bytes (repeat 0 n).
Proof. intros n. apply Forall_forall. intros x I. apply repeat_spec in I. subst. reflexivity. Qed.
Lemma input_bytes : forall k n, bytes (k_data k) -> bytes (k_data k ++ repeat 0 n ++ flat_map (le 8) (k_reloc k)).
Proof. intros k n B. apply bytes_app; [exact B|]. apply bytes_app; [apply bytes_zero|apply bytes_flat]. Qed.
Lemma write_bytes : forall source k, digest checksum -> lz4 compress decompress -> storable k -> bytes (write source k).
Proof.
  intros source k D Z (S1 & S0 & S2 & S3 & S4). unfold Cac_Model.write, header_bytes. cbn [h_version h_compressed h_source h_kernel h_reloc app].
  constructor; [reflexivity|]. apply bytes_app; [repeat (apply bytes_app; [apply bytes_le|]); apply bytes_le|]. apply bytes_app; [apply D|].
  apply Z; [apply input_bytes, S0|]. rewrite !len_app, flat_len. unfold len at 2. rewrite repeat_length, N2Nat.id. pose proof (padding_small (u32 (len (k_data k)))). lia.
Qed.

Lemma round_trip : forall source k table, digest checksum -> lz4 compress decompress -> storable k -> len source < 2 ^ 32 ->
  exists k', load source (write source k) table = Loaded k' /\ same_kernel k k' table.
Proof.
  intros source k table D Z (S1 & S0 & S2 & S3 & S4) SL. unfold Cac_Model.write.
  set (n := len (k_data k)) in *. set (m := len (k_reloc k)) in *.
  assert (C31 : 2 ^ 31 - 2 ^ 25 < 2 ^ 32) by reflexivity.
  assert (U1 : u32 n = n) by (apply u32_small; lia). assert (U2 : u32 (m * 8) = m * 8) by (apply u32_small; lia). assert (U3 : u32 (len source) = len source) by (apply u32_small; exact SL).
  rewrite U1, U2, U3. set (input := k_data k ++ _).
  assert (LI : len input = n + padding n + m * 8).
  { unfold input. rewrite !len_app, flat_len. fold n m. replace (len (repeat 0 (N.to_nat (padding n)))) with (padding n) by (unfold len; rewrite repeat_length; lia). lia. }
  pose proof (padding_small n) as PS. destruct (Z input (input_bytes _ _ S0) ltac:(lia)) as (Z1 & Z2 & Z3). set (out := compress input) in *.
  rewrite (u32_small (len out) Z2). set (h := mkHeader _ _ _ _ _ _). destruct (D (header_bytes h ++ source ++ out)) as [D1 _].
  unfold cache_checksum. set (cs := checksum (header_bytes h ++ source ++ out)) in *.
  change (header_bytes h) with (raw version (len out) (len source) n (m * 8)).
  destruct (read_back version (len out) (len source) n (m * 8) cs out) as [RH SK]; [reflexivity|exact Z2|exact SL|lia|lia|exact D1|].
  set (f := raw _ _ _ _ _ ++ cs ++ out) in *.
  assert (LF : len f = 33 + len out) by (unfold f; rewrite !len_app; unfold len; rewrite raw_length, D1; lia).
  unfold Cac_Model.load. rewrite (proj2 (N.ltb_ge (len f) 33)) by lia. rewrite RH. cbn [h_version h_compressed h_source h_kernel h_reloc h_checksum].
  rewrite N.eqb_refl, LF, N.eqb_refl, U3, N.eqb_refl. cbn [negb]. rewrite SK.
  replace (firstn (N.to_nat (len out)) out) with out by (symmetry; apply firstn_all2; unfold len; lia).
  unfold cache_checksum. change (header_bytes (mkHeader version (len out) (len source) n (m * 8) cs)) with (header_bytes h). fold cs.
  destruct (list_eq_dec N.eq_dec cs cs) as [_|X]; [|congruence]. cbn [negb].
  assert (TU : u32 (n + padding n + m * 8) = n + padding n + m * 8) by (apply u32_small; lia). rewrite TU, <- LI, Z1, N.eqb_refl, N.ltb_irrefl. cbn [negb].
  assert (NZ : n =? 0 = false) by (apply N.eqb_neq; intros X; apply S1; unfold n, len in X; destruct (k_data k); [reflexivity|cbn in X; lia]). rewrite NZ.
  rewrite N.div_mul by discriminate.
  assert (FD : firstn (N.to_nat n) input = k_data k).
  { unfold input, n, len. rewrite Nat2N.id, firstn_app, Nat.sub_diag, firstn_O, app_nil_r. apply firstn_all. }
  assert (WD : words (N.to_nat m) (skipn (N.to_nat (n + padding n)) input) = k_reloc k).
  { unfold input. rewrite app_assoc, skipn_app. rewrite skipn_all2 by (rewrite app_length, repeat_length; unfold n, len; lia). cbn [app].
    replace (N.to_nat (n + padding n) - length (k_data k ++ repeat 0%N (N.to_nat (padding n))))%nat with 0%nat by (rewrite app_length, repeat_length; unfold n, len; lia). cbn [skipn].
    unfold m, len. rewrite Nat2N.id. pose proof (words_flat (k_reloc k) [] S2) as W. rewrite app_nil_r in W. exact W. }
  rewrite FD, WD. unfold same_kernel. destruct (k_reloc k) as [|a [|off r]] eqn:ER.
  - eexists. split; [reflexivity|]. cbn [k_data k_reloc]. auto.
  - eexists. split; [reflexivity|]. cbn [k_data k_reloc]. auto.
  - specialize (S4 a off r eq_refl). rewrite (proj2 (N.ltb_ge n (off + 8))) by exact S4. eexists. split; [reflexivity|]. cbn [k_data k_reloc].
    assert (LL : (N.to_nat off + length (le 8 table) <= length (k_data k))%nat) by (rewrite le_length; unfold n, len in S4; lia).
    split; [reflexivity|]. split; [symmetry; apply poke_length; exact LL|]. intros i. rewrite poke_nth by exact LL. rewrite le_length.
    replace (Nat.leb (N.to_nat off) i) with (off <=? N.of_nat i) by (destruct (N.leb_spec off (N.of_nat i)), (Nat.leb_spec (N.to_nat off) i); lia || reflexivity).
    replace (Nat.ltb i (N.to_nat off + 8)) with (N.of_nat i <? off + 8) by (destruct (N.ltb_spec (N.of_nat i) (off + 8)), (Nat.ltb_spec i (N.to_nat off + 8)); lia || reflexivity).
    destruct (N.leb_spec off (N.of_nat i)); cbn [andb]; [|reflexivity]. destruct (N.ltb_spec (N.of_nat i) (off + 8)); [|reflexivity].
    rewrite le_nth by lia. do 4 f_equal. lia.
Qed.
End F.

Lemma altered : forall checksum compress decompress source k source' f table,
  digest checksum -> lz4 compress decompress -> storable k -> len source < 2 ^ 32 -> bytes f ->
  let stored := write checksum compress source k in
  checksum_field f = checksum_field stored ->
  load checksum decompress source' f table <> Rejected ->
  (source' = source /\ f = stored) \/ collides checksum (protected source' f) (protected source stored).
Proof.
  intros checksum compress decompress source k source' f table D Z K L B stored E A. destruct (round_trip checksum compress decompress source k table D Z K L) as (k' & R & _).
  refine (detects checksum compress decompress source' source f stored table table B (write_bytes checksum compress decompress source k D Z K) A _ E). fold stored in R. rewrite R. discriminate.
Qed.

(** A checksum and a (non-)compression to test with *)
Definition toy_sum (m : list N) : list N := le 16 (fold_left (fun h b => h * 31 + b + 7) m 1).
Definition toy_unpack (x : list N) (n : N) : option (list N) := if len x =? n then Some x else None.
Lemma toy_digest : digest toy_sum.
Proof. intros m. split; [apply le_length|apply bytes_le]. Qed.
Lemma toy_lz4 : lz4 (fun x => x) toy_unpack.
Proof. intros x B L. unfold toy_unpack. rewrite N.eqb_refl. split; [reflexivity|]. split; [|exact B]. eapply N.le_lt_trans; [exact L|reflexivity]. Qed.
Lemma trusts : exists checksum compress decompress source f table,
  digest checksum /\ lz4 compress decompress /\ bytes f /\ load checksum decompress source f table = Undefined.
Proof.
  exists toy_sum, (fun x => x), toy_unpack, [97], (write toy_sum (fun x => x) [97] (mkKernel [1; 2; 3] [0; 1000])), 5.
  split; [exact toy_digest|]. split; [exact toy_lz4|]. split; [|vm_compute; reflexivity]. vm_compute. repeat constructor.
Qed.
