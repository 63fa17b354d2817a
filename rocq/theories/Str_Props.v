(** Properties C35-C39: the text buffer. *)
From Coq Require Import String Ascii.
From Verif Require Import Base Str_Model Str_Spec Str_Proofs Str_Num Str_Run Str_Fmt Str_Hist.
Local Open Scope N_scope.

(** * C35: integer formatting is exact *)

(** The specification's numeral is canonical: it denotes the number and has no
    leading zero. *)
Theorem C35_numeral_denotes base n : 2 <= base <= 16 -> value base (numeral base n) = n.
Proof. exact (numeral_value base n). Qed.
Print Assumptions C35_numeral_denotes.
Theorem C35_numeral_no_leading_zero base n : 2 <= base <= 16 -> 1 <= n ->
  exists d l, numeral base n = dig d :: l /\ 1 <= d.
Proof. exact (numeral_head base n). Qed.
Print Assumptions C35_numeral_no_leading_zero.
Theorem C35_padded_denotes k n : length (padded k 16 n) = k /\ value 16 (padded k 16 n) = n mod 16 ^ N.of_nat k.
Proof. exact (padded_value k n). Qed.
Print Assumptions C35_padded_denotes.

(** Raw writers: exactly the numeral, at most MAXSIZE bytes touched. *)
Theorem C35_w_u32 n : n < 2 ^ 32 -> writes (fun cap m d => w_u32 cap m d n) (numeral 10 n) 10.
Proof. exact (writes_u32_10 n). Qed.
Print Assumptions C35_w_u32.
Theorem C35_w_u64 n : n < 2 ^ 64 -> writes (fun cap m d => w_u64 cap m d n) (numeral 10 n) 20.
Proof. exact (writes_u64_20 n). Qed.
Print Assumptions C35_w_u64.
Theorem C35_w_x64 n : n < 2 ^ 64 -> writes (fun cap m d => w_x64 cap m d n) (numeral 16 n) (len (numeral 16 n)).
Proof. exact (writes_x64 n). Qed.
Print Assumptions C35_w_x64.
Theorem C35_w_q64 n : writes (fun cap m d => w_q64 cap m d n) (padded 16 16 n) 16.
Proof. exact (writes_q64 n). Qed.
Print Assumptions C35_w_q64.

(** Witness texts. *)
Definition room : mem := fun _ => 1.
Definition out (r : option (mem * N)) : option (list N) :=
  match r with Some (m, e) => Some (rd m 0 (N.to_nat e)) | None => None end.
Example C35_ex32 : out (w_u32 10 room 0 4294967295) = Some (str "4294967295").
Proof. vm_compute. reflexivity. Qed.
Example C35_ex64 : out (w_u64 20 room 0 18446744073709551615) = Some (str "18446744073709551615").
Proof. vm_compute. reflexivity. Qed.
Example C35_ex64b : out (w_u64 20 room 0 4300000007) = Some (str "4300000007").
Proof. vm_compute. reflexivity. Qed.
Example C35_exx : out (w_x64 20 room 0 0xdeadbeef1) = Some (str "deadbeef1").
Proof. vm_compute. reflexivity. Qed.
Example C35_exq : out (w_q64 20 room 0 0xdeadbeef1) = Some (str "0000000deadbeef1").
Proof. vm_compute. reflexivity. Qed.
Example C35_value : value 16 (numeral 16 0xdeadbeef1) = 0xdeadbeef1 /\ numeral 16 0xdeadbeef1 = str "deadbeef1".
Proof. vm_compute. auto. Qed.

(** * C36: formatting never overruns, and produces the expansion of the format *)

Definition fmt_claim (X : tdialect) (b : sbuf) (p : list N) (args : list farg) (r : fres) : Prop :=
  match fmt_text X p args with
  | Ok t => exists b', r = Done b' /\ contents b' = contents b ++ t /\ s_cur b' = s_cur b + len t /\
                       s_mem b' (s_cur b') = 0 /\ s_cur b' < s_cap b'
  | Bad => r = Abort
  | NoClaim => True
  end.

Theorem C36_fmt_llvm e b p args : env_ok e -> Forall (fun c => c < 256) p -> Forall arg_ok args ->
  fits b p args -> fmt_claim (x_llvm e) b p args (fmt_llvm e b p args).
Proof. exact (fun E B A F => claim_done b _ _ (fmt_ok _ _ b p args (agree_llvm e E) B A F)). Qed.
Print Assumptions C36_fmt_llvm.
Theorem C36_fmt_cuda b p args : Forall (fun c => c < 256) p -> Forall arg_ok args ->
  fits b p args -> fmt_claim x_cuda b p args (fmt_cuda b p args).
Proof. exact (fun B A F => claim_done b _ _ (fmt_ok _ _ b p args agree_cuda B A F)). Qed.
Print Assumptions C36_fmt_cuda.
Theorem C36_fmt_metal b p args : Forall (fun c => c < 256) p -> Forall arg_ok args ->
  fits b p args -> fmt_claim x_metal b p args (fmt_metal b p args).
Proof. exact (fun B A F => claim_done b _ _ (fmt_ok _ _ b p args agree_metal B A F)). Qed.
Print Assumptions C36_fmt_metal.

Definition buf0 : sbuf := mkSB room 0 0.
Definition env0 : fenv := mkE 8 1 (fun _ => 0x3ff0000000000000) (fun _ => 0).
Definition text (r : fres) : option (list N) :=
  match r with Done b => Some (rd (s_mem b) 0 (N.to_nat (s_cur b))) | _ => None end.
Definition var0 : fvar := mkV 14 42 0x3f800000 false 64.
Example C36_ex : text (fmt_llvm env0 buf0 (str "  $v = fadd $V, $T $l ; $s$u$<") [AVar var0; AVar var0; AVar var0; AVar var0; AStr (str "note "); AU32 123])
  = Some (str "  %f42 = fadd <8 x float> %f42, <8 x float> 0x3ff0000000000000 ; note 123<8 x ").
Proof. vm_compute. reflexivity. Qed.
Example C36_hyp : env_ok env0 /\ fits buf0 (str "$v") [AVar var0] /\ arg_ok (AVar var0) /\
  fmt_text (x_llvm env0) (str "$v") [AVar var0] = Ok (str "%f42").
Proof. unfold env_ok, fits, var_ok. cbn. repeat split; intros; vm_compute; reflexivity. Qed.
Example C36_abort : fmt_llvm env0 buf0 (str "abc $v") [AVar var0; AU32 1] = Abort /\ fmt_llvm env0 buf0 (str "$k") [] = Abort.
Proof. vm_compute. auto. Qed.
Example C36_cuda : text (fmt_cuda buf0 (str "ld.$b $v, [$o];") [AVar var0; AVar var0; AVar var0]) = Some (str "ld.b32 %f42, [64];").
Proof. vm_compute. reflexivity. Qed.

(** * C37: runs of plain characters *)

Theorem C37_run cap m d p : Forall (fun c => c < 256) p -> d + len p <= cap ->
  exists m' l r, w_run cap m d p = Some (m', d + len l, r) /\ p = l ++ r /\ ~ In 36 l /\
    (r = [] \/ exists r', r = 36 :: r') /\ rd m' d (length l) = l /\
    (forall i, i < d \/ d + len p <= i -> m' i = m i).
Proof. exact (run_spec cap m d p). Qed.
Print Assumptions C37_run.
Example C37_ex : exists m', w_run 64 room 0 (str "add.f32 %f1, %f2%$v") = Some (m', 17, str "$v").
Proof. eexists. vm_compute. reflexivity. Qed.
(** A character differing from '$' by one, right above a '$' byte, is the
    classical false positive of the word test; it is harmless. *)
Example C37_ex2 : exists m', w_run 64 room 0 (str "abc$%%%%%") = Some (m', 3, str "$%%%%%").
Proof. eexists. vm_compute. reflexivity. Qed.

(** * C38: move_suffix is a rotation *)

Theorem C38_move_suffix b start target :
  target <= start <= s_cur b -> s_cur b <= s_cap b -> 2 * s_cur b < 2 ^ 63 ->
  exists b', move_suffix b start target = Some b' /\
    s_cur b' = s_cur b /\ s_mem b' (s_cur b') = 0 /\ s_cur b' < s_cap b' /\
    contents b' = firstn (N.to_nat target) (contents b) ++ skipn (N.to_nat start) (contents b) ++
                  firstn (N.to_nat (start - target)) (skipn (N.to_nat target) (contents b)).
Proof. exact (move_ok b start target). Qed.
Print Assumptions C38_move_suffix.
Definition after (l : list sop) : option (list N) :=
  match run buf0 l with Some b => Some (contents b) | None => None end.
Example C38_ex : after [SPut (str "header body LATE"); SMove 11 6] = Some (str "header LATE body").
Proof. vm_compute. reflexivity. Qed.

(** * C39: the buffer holds the text; it is terminated after the operations that terminate *)

Theorem C39_contents ops b t : fresh_buf b -> texts [] ops t ->
  exists b', run b ops = Some b' /\ contents b' = t /\ s_cur b' = len t.
Proof. exact (hist_contents ops b t). Qed.
Print Assumptions C39_contents.

(** Missing: histories that end in put_u32/u64/x32/x64 or delete_trailing_commas. *)
Theorem C39_terminated_partial ops o b t : fresh_buf b -> texts [] (ops ++ [o]) t -> terminates o = true ->
  exists b', run b (ops ++ [o]) = Some b' /\ contents b' = t /\ terminated b'.
Proof. exact (hist_terminated ops o b t). Qed.
Print Assumptions C39_terminated_partial.

(** put("hello"), rewind(5), put_u32(7): the characters appended and not
    removed are "7", but get() reads "77llo". *)
Theorem C39_terminated_refuted : exists ops b' t l,
  fresh_buf buf0 /\ texts [] ops t /\ run buf0 ops = Some b' /\ contents b' = t /\ c_string b' l /\ l <> t.
Proof. exact hist_refuted. Qed.
Print Assumptions C39_terminated_refuted.
Example C39_ex : after [SPut (str "a = b, "); SDel; SU32 12; SFmt env0 (str " $u") [AU32 5]; SX64 255; SRewind 1]
  = Some (str "a = b12 5f").
Proof. vm_compute. reflexivity. Qed.
Example C39_ex_texts : texts [] [SPut (str "a, "); SDel; SPut (str ";")] (str "a;").
Proof. repeat (econstructor; [vm_compute; reflexivity|vm_compute; reflexivity|]). constructor. Qed.
