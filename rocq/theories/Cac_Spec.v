(** What users of the kernel cache rely on. *)
From Verif Require Import Base Cac_Model.
Local Open Scope N_scope.

(** ** Sizes *)
Definition digit (c : N) : Prop := 48 <= c <= 57.
Fixpoint decimal (s : list N) : N := match s with [] => 0 | c :: r => (c - 48) * 10 ^ len r + decimal r end.
(** Suffixes k, K, m, M, g, G *)
Inductive suffix : list N -> N -> Prop :=
| Plain : suffix [] 1
| Kilo : forall c, c = 107 \/ c = 75 -> suffix [c] (2 ^ 10)
| Mega : forall c, c = 109 \/ c = 77 -> suffix [c] (2 ^ 20)
| Giga : forall c, c = 103 \/ c = 71 -> suffix [c] (2 ^ 30).
Definition denotes (s : list N) (n : N) : Prop :=
  exists ds suf scale, s = ds ++ suf /\ ds <> [] /\ Forall digit ds /\ suffix suf scale /\ n = decimal ds * scale.
(** The marker of malformed input *)
Definition refused (n : N) : Prop := n = 2 ^ 64 - 1.

(** ** Files *)
Definition bytes (l : list N) : Prop := Forall (fun b => b < 256) l.
(** Stored kernels: code and a table of offsets, whose second one points to a slot for an address. *)
Definition storable (k : kernel) : Prop :=
  k_data k <> [] /\ bytes (k_data k) /\ Forall (fun o => o < 2 ^ 64) (k_reloc k) /\
  len (k_data k) + 7 + 8 * len (k_reloc k) < 2 ^ 31 - 2 ^ 25 /\
  (forall a off r, k_reloc k = a :: off :: r -> off + 8 <= len (k_data k)).
(** Equal up to the slot *)
Definition same_kernel (a b : kernel) (table : N) : Prop :=
  k_reloc a = k_reloc b /\ length (k_data a) = length (k_data b) /\
  match k_reloc a with
  | _ :: off :: _ =>
      forall i, nth_error (k_data b) i =
        if (off <=? N.of_nat i) && (N.of_nat i <? off + 8) then Some (table / 256 ^ (N.of_nat i - off) mod 256) else nth_error (k_data a) i
  | _ => k_data b = k_data a
  end.
(** LZ4: decompression inverts compression (inputs up to LZ4_MAX_INPUT_SIZE) *)
Definition lz4 (compress : list N -> list N) (decompress : list N -> N -> option (list N)) : Prop :=
  forall x, bytes x -> len x <= 2 ^ 31 - 2 ^ 25 -> decompress (compress x) (len x) = Some x /\ len (compress x) < 2 ^ 32 /\ bytes (compress x).
Definition digest (checksum : list N -> list N) : Prop := forall m, length (checksum m) = 16%nat /\ bytes (checksum m).
(** What the checksum is taken of: everything but itself *)
Definition protected (source f : list N) : list N := firstn 17 f ++ source ++ skipn 33 f.
Definition checksum_field (f : list N) : list N := firstn 16 (skipn 17 f).
(** These two are a collision *)
Definition collides (checksum : list N -> list N) (m m' : list N) : Prop := m <> m' /\ checksum m = checksum m'.

(** ** Publication *)
Definition complete (w : writer) : list N := concat (w_pieces w).
Definition distinct_names (ws : list writer) : Prop := NoDup (map temp ws).
(** Initially: existing entries satisfy [ok]; a left-over temporary file that is going to
    be reused is not linked elsewhere. *)
Definition clean (ok : nat -> list N -> Prop) (ws : list writer) (s : fs) : Prop :=
  (forall n i, dir s n = Some i -> (i < inodes s)%nat) /\
  (forall w m i, In w ws -> dir s (temp w) = Some i -> dir s m = Some i -> m = temp w) /\
  (forall h i, dir s (Final h) = Some i -> ok h (content s i)).
(** Entry [h] has content [c], as written by one of the writers or from before. *)
Definition sound (ok : nat -> list N -> Prop) (ws : list writer) (h : nat) (c : list N) : Prop :=
  ok h c \/ exists w, In w ws /\ w_hash w = h /\ c = complete w.
Definition start (ws : list writer) (s : fs) : world := mkWorld s (map (fun _ => Start) ws).

(** ** Sweep *)
Fixpoint sum_sizes (l : list dentry) : N := match l with [] => 0 | e :: r => d_size e + sum_sizes r end.
Definition by_time (sort : list dentry -> list dentry) : Prop :=
  forall l, Permutation (sort l) l /\ StronglySorted (fun a b => (d_time a <= d_time b)%Z) (sort l).
Definition cache_file (e : dentry) : Prop := d_bin e = true /\ d_regular e = true /\ d_error e = false.

(** ** Stamp: no process interferes while another one looks at the stamp *)
Inductive block := Whole (n : nat) | Pause (d : Z).
Definition events_of (b : block) : list sevent := match b with Whole n => repeat (Go n) 5 | Pause d => [Tick d] end.
(** Newest sweep first: at least an hour between two sweeps *)
Definition apart (l : list (nat * Z)) : Prop := StronglySorted (fun a b => (snd b + 3600 <= snd a)%Z) l.
Definition idle (s : stamp) (n : nat) : stamp * list spc := (s, repeat SInit n).
