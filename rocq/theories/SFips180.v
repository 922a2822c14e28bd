(** FIPS 180-4 (SHA-1, SHA-2), written from the standard; independent of the model.
    Constants are generated, not copied: SHA-2 round constants from cube roots and initial
    values from square roots of primes, SHA-512/t initial values by the IV generation function. *)
From Coq Require Import String.
From Verif Require Import Base SHex.
Local Open Scope N_scope.

(** ** 2.2: operations on w-bit words *)
Definition addw (w x y : N) : N := (x + y) mod 2 ^ w.
Definition notw (w x : N) : N := N.lxor x (N.ones w).
Definition shr (n x : N) : N := x / 2 ^ n.
Definition rotr (w n x : N) : N := N.lor (x / 2 ^ n) ((x * 2 ^ (w - n)) mod 2 ^ w).
Definition rotl (w n x : N) : N := N.lor ((x * 2 ^ n) mod 2 ^ w) (x / 2 ^ (w - n)).
Definition sumw (w : N) (l : list N) : N := fold_left (addw w) l 0.

(** ** byte/word conversion *)
(** big-endian representation of [v] in [n] bytes *)
Definition be_bytes (n : nat) (v : N) : list N :=
  map (fun i => (v / 256 ^ N.of_nat (n - 1 - i)) mod 256) (seq 0 n).
(** cut in pieces of [k] elements (last one possibly shorter) *)
Fixpoint cut (fuel k : nat) {A} (l : list A) : list (list A) :=
  match fuel, l with
  | O, _ | _, [] => []
  | S fuel, _ => firstn k l :: cut fuel k (skipn k l)
  end.
Definition pieces (k : nat) {A} (l : list A) : list (list A) := cut (length l) k l.

(** ** 5.1: padding. [bs]: block size in bytes, [lb]: bytes of the length field, [enc] its encoding. *)
Definition pad_zeros (bs lb len : nat) : nat := ((2 * bs - (len mod bs) - 1 - lb) mod bs)%nat.
Definition padded (bs lb : nat) (enc : N -> list N) (m : list N) : list N :=
  m ++ [0x80] ++ repeat 0 (pad_zeros bs lb (length m)) ++ enc (8 * N.of_nat (length m)).
(** [pad_zeros] is the least number of zeros making the total a multiple of the block *)
Lemma pad_zeros_least bs lb len : (1 + lb <= bs)%nat ->
  ((len + 1 + pad_zeros bs lb len + lb) mod bs = 0)%nat /\
  forall k, ((len + 1 + k + lb) mod bs = 0)%nat -> (pad_zeros bs lb len <= k)%nat.
Proof.
  intros H. unfold pad_zeros. set (r := (len mod bs)%nat). set (q := (len / bs)%nat).
  assert (E : (len = bs * q + r)%nat) by apply Nat.div_mod_eq.
  assert (R : (r < bs)%nat) by (apply Nat.mod_upper_bound; lia).
  set (z := ((2 * bs - r - 1 - lb) mod bs)%nat).
  assert (Z : (z < bs)%nat) by (apply Nat.mod_upper_bound; lia).
  assert (D : exists c, (2 * bs - r - 1 - lb = bs * c + z)%nat).
  { exists ((2 * bs - r - 1 - lb) / bs)%nat. apply Nat.div_mod_eq. }
  destruct D as (c & D). clearbody r q z.
  assert (Hc : (c = 0 \/ c = 1)%nat).
  { destruct c as [|[|c]]; [auto|auto|exfalso]. assert (bs * S (S c) = bs * c + 2 * bs)%nat by ring. lia. }
  assert (Q : (len + 1 + z + lb = (q + 2 - c) * bs)%nat).
  { destruct Hc as [-> | ->].
    - replace ((q + 2 - 0) * bs)%nat with (bs * q + 2 * bs)%nat by (rewrite Nat.sub_0_r; ring). lia.
    - replace ((q + 2 - 1) * bs)%nat with (bs * q + bs)%nat by (replace (q + 2 - 1)%nat with (q + 1)%nat by lia; ring). lia. }
  split.
  - rewrite Q. apply Nat.mod_mul. lia.
  - intros k K. apply Nat.mod_divides in K; [|lia]. destruct K as (d & K).
    destruct (Nat.le_gt_cases z k) as [G|G]; [assumption|exfalso].
    set (t := (q + 2 - c)%nat) in *. clearbody t. clear - K Q G Z.
    assert (U : (t * bs - bs * d = z - k)%nat) by lia. rewrite (Nat.mul_comm t bs), <- Nat.mul_sub_distr_l in U.
    destruct (t - d)%nat as [|e]; [rewrite Nat.mul_0_r in U; lia|]. rewrite Nat.mul_succ_r in U. pose proof (Nat.le_0_l (bs * e)). lia.
Qed.

(** ** 6: iterate a compression function over the padded message *)
Definition iterate (bs lb : nat) (enc : N -> list N) (compress : list N -> list N -> list N)
           (iv m : list N) : list N :=
  fold_left compress (pieces bs (padded bs lb enc m)) iv.

(** ** 4.1: functions *)
Definition Ch (w x y z : N) : N := N.lxor (N.land x y) (N.land (notw w x) z).
Definition Maj (x y z : N) : N := N.lxor (N.lxor (N.land x y) (N.land x z)) (N.land y z).
Definition Parity (x y z : N) : N := N.lxor (N.lxor x y) z.

(** ** primes and roots, for the constants *)
(** no number in d, d+1, ..., d+k-1 divides n *)
Fixpoint no_divisor (n d : N) (k : nat) : bool :=
  match k with O => true | S k => if n mod d =? 0 then false else no_divisor n (d + 1) k end.
Definition is_prime (n : nat) : bool := if Nat.leb 2 n then no_divisor (N.of_nat n) 2 (n - 2) else false.
Definition primes (count : nat) : list N :=
  map N.of_nat (firstn count (filter is_prime (seq 2 408))).
(** floor of the e-th root of n, if it is below 2^bits *)
Fixpoint root_from (bits : nat) (e n acc : N) : N :=
  match bits with
  | O => acc
  | S b => let t := acc + 2 ^ N.of_nat b in
           if t ^ e <=? n then root_from b e n t else root_from b e n acc
  end.
Definition root (e n : N) : N := root_from 140 e n 0.
(** the first w bits of the fractional part of the e-th root of p *)
Definition frac_root (e w p : N) : N := root e (p * 2 ^ (e * w)) mod 2 ^ w.

(** ** 6.1: SHA-1. Round constants: the integer part of 2^30 times the square roots of 2, 3, 5, 10. *)
Definition sha1_K (t : nat) : N :=
  root 2 ((if Nat.ltb t 20 then 2 else if Nat.ltb t 40 then 3 else if Nat.ltb t 60 then 5 else 10) * 2 ^ 60).
Definition sha1_f (t : nat) (x y z : N) : N :=
  if Nat.ltb t 20 then Ch 32 x y z else if Nat.ltb t 40 then Parity x y z
  else if Nat.ltb t 60 then Maj x y z else Parity x y z.
Definition sha1_schedule (block : list N) : list N :=
  fold_left (fun W t => W ++ [rotl 32 1 (N.lxor (N.lxor (N.lxor (nth (t - 3) W 0) (nth (t - 8) W 0)) (nth (t - 14) W 0)) (nth (t - 16) W 0))])
    (seq 16 64) (map be_value (pieces 4 block)).
Definition sha1_round (W : list N) (s : list N) (t : nat) : list N :=
  match s with
  | [a; b; c; d; e] =>
      let T := sumw 32 [rotl 32 5 a; sha1_f t b c d; e; sha1_K t; nth t W 0] in
      [T; a; rotl 32 30 b; c; d]
  | _ => s
  end.
Definition zip_add (w : N) (x y : list N) : list N := map (fun p => addw w (fst p) (snd p)) (combine x y).
Definition sha1_compress (H block : list N) : list N :=
  zip_add 32 H (fold_left (sha1_round (sha1_schedule block)) (seq 0 80) H).
(** 5.3.1 *)
Definition sha1_IV : list N := [0x67452301; 0xefcdab89; 0x98badcfe; 0x10325476; 0xc3d2e1f0].
Definition SHA1 (m : list N) : list N :=
  flat_map (be_bytes 4) (iterate 64 8 (be_bytes 8) sha1_compress sha1_IV m).

(** ** 6.2, 6.4: SHA-2 *)
Record sha2 := mkSha2 { word : N; wbytes : nat; rounds : nat;
  Sigma0 : N -> N; Sigma1 : N -> N; sigma0 : N -> N; sigma1 : N -> N; Kt : list N }.
Definition x3 (a b c : N) : N := N.lxor (N.lxor a b) c.
Definition sha2_32 : sha2 := mkSha2 32 4 64
  (fun x => x3 (rotr 32 2 x) (rotr 32 13 x) (rotr 32 22 x))
  (fun x => x3 (rotr 32 6 x) (rotr 32 11 x) (rotr 32 25 x))
  (fun x => x3 (rotr 32 7 x) (rotr 32 18 x) (shr 3 x))
  (fun x => x3 (rotr 32 17 x) (rotr 32 19 x) (shr 10 x))
  (map (frac_root 3 32) (primes 64)).
Definition sha2_64 : sha2 := mkSha2 64 8 80
  (fun x => x3 (rotr 64 28 x) (rotr 64 34 x) (rotr 64 39 x))
  (fun x => x3 (rotr 64 14 x) (rotr 64 18 x) (rotr 64 41 x))
  (fun x => x3 (rotr 64 1 x) (rotr 64 8 x) (shr 7 x))
  (fun x => x3 (rotr 64 19 x) (rotr 64 61 x) (shr 6 x))
  (map (frac_root 3 64) (primes 80)).

Definition sha2_schedule (F : sha2) (block : list N) : list N :=
  fold_left (fun W t => W ++ [sumw (word F) [sigma1 F (nth (t - 2) W 0); nth (t - 7) W 0; sigma0 F (nth (t - 15) W 0); nth (t - 16) W 0]])
    (seq 16 (rounds F - 16)) (map be_value (pieces (wbytes F) block)).
Definition sha2_round (F : sha2) (W s : list N) (t : nat) : list N :=
  match s with
  | [a; b; c; d; e; f; g; h] =>
      let T1 := sumw (word F) [h; Sigma1 F e; Ch (word F) e f g; nth t (Kt F) 0; nth t W 0] in
      let T2 := addw (word F) (Sigma0 F a) (Maj a b c) in
      [addw (word F) T1 T2; a; b; c; addw (word F) d T1; e; f; g]
  | _ => s
  end.
Definition sha2_compress (F : sha2) (H block : list N) : list N :=
  zip_add (word F) H (fold_left (sha2_round F (sha2_schedule F block)) (seq 0 (rounds F)) H).
(** [digest] bytes of the concatenated state words *)
Definition sha2_hash (F : sha2) (iv : list N) (digest : nat) (m : list N) : list N :=
  firstn digest (flat_map (be_bytes (wbytes F))
    (iterate (16 * wbytes F) (2 * wbytes F) (be_bytes (2 * wbytes F)) (sha2_compress F) iv m)).

(** 5.3: initial values *)
Definition IV_512 : list N := map (frac_root 2 64) (primes 8).
Definition IV_384 : list N := map (frac_root 2 64) (skipn 8 (primes 16)).
Definition IV_256 : list N := map (frac_root 2 32) (primes 8).
(** SHA-224: the second 32 bits of the fractional parts used for SHA-384 *)
Definition IV_224 : list N := map (fun x => x mod 2 ^ 32) IV_384.
Definition words8 (b : list N) : list N := map be_value (pieces 8 b).
(** 5.3.6: SHA-512/t IV generation function *)
Definition IV_512t (name : string) : list N :=
  words8 (sha2_hash sha2_64 (map (fun h => N.lxor h 0xa5a5a5a5a5a5a5a5) IV_512) 64 (chars name)).
Definition IV_512_224 : list N := IV_512t "SHA-512/224".
Definition IV_512_256 : list N := IV_512t "SHA-512/256".

Definition SHA224 := sha2_hash sha2_32 IV_224 28.
Definition SHA256 := sha2_hash sha2_32 IV_256 32.
Definition SHA384 := sha2_hash sha2_64 IV_384 48.
Definition SHA512 := sha2_hash sha2_64 IV_512 64.
Definition SHA512_224 := sha2_hash sha2_64 IV_512_224 28.
Definition SHA512_256 := sha2_hash sha2_64 IV_512_256 32.

(** Known answers (sanity tests of the specification, run at compile time; nothing depends on them). *)
Check (@eq_refl _ (be_bytes 20 0xa9993e364706816aba3e25717850c26c9cd0d89d) <: SHA1 (chars "abc") = be_bytes 20 0xa9993e364706816aba3e25717850c26c9cd0d89d).
Check (@eq_refl _ (be_bytes 28 0x23097d223405d8228642a477bda255b32aadbce4bda0b3f7e36c9da7) <: SHA224 (chars "abc") = be_bytes 28 0x23097d223405d8228642a477bda255b32aadbce4bda0b3f7e36c9da7).
Check (@eq_refl _ (be_bytes 32 0xba7816bf8f01cfea414140de5dae2223b00361a396177a9cb410ff61f20015ad) <: SHA256 (chars "abc") = be_bytes 32 0xba7816bf8f01cfea414140de5dae2223b00361a396177a9cb410ff61f20015ad).
Check (@eq_refl _ (be_bytes 48 0xcb00753f45a35e8bb5a03d699ac65007272c32ab0eded1631a8b605a43ff5bed8086072ba1e7cc2358baeca134c825a7) <: SHA384 (chars "abc") = be_bytes 48 0xcb00753f45a35e8bb5a03d699ac65007272c32ab0eded1631a8b605a43ff5bed8086072ba1e7cc2358baeca134c825a7).
Check (@eq_refl _ (be_bytes 64 0xf241de612b01aa2fa3cf01531d2a8e5e17fc761dfd48a704a834a47f57d6eade7804ecc39be42fdef16ec6adeaf7c01c2fd0c4cc97d3860907cfa4a3b36d0c05) <: SHA512 (repeat 97 120) = be_bytes 64 0xf241de612b01aa2fa3cf01531d2a8e5e17fc761dfd48a704a834a47f57d6eade7804ecc39be42fdef16ec6adeaf7c01c2fd0c4cc97d3860907cfa4a3b36d0c05).
Check (@eq_refl _ (be_bytes 28 0x4634270f707b6a54daae7530460842e20e37ed265ceee9a43e8924aa) <: SHA512_224 (chars "abc") = be_bytes 28 0x4634270f707b6a54daae7530460842e20e37ed265ceee9a43e8924aa).
Check (@eq_refl _ (be_bytes 32 0x53048e2681941ef99b2e29b76b4c7dabe4c2d0c634fc6d46e0e2f13107e7af23) <: SHA512_256 (chars "abc") = be_bytes 32 0x53048e2681941ef99b2e29b76b4c7dabe4c2d0c634fc6d46e0e2f13107e7af23).
