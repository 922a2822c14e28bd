(** Byte order, independent of the models. *)
From Verif Require Import Base SFips180.
Local Open Scope N_scope.

(** the [n]-byte number with the same bytes in the opposite order *)
Definition swap_bytes (n : nat) (v : N) : N :=
  fold_right N.add 0 (map (fun i => (v / 256 ^ N.of_nat i) mod 256 * 256 ^ N.of_nat (n - 1 - i)) (seq 0 n)).
Example swap_8 : swap_bytes 8 0x0102030405060708 = 0x0807060504030201.  Proof. reflexivity. Qed.
Example swap_4 : swap_bytes 4 0xcafe0001 = 0x0100feca.  Proof. reflexivity. Qed.
(** a 64-bit number with its 32-bit halves exchanged *)
Definition swap_halves (v : N) : N := v mod 2 ^ 32 * 2 ^ 32 + v / 2 ^ 32.
Example swap_h : swap_halves 0x0102030405060708 = 0x0506070801020304.  Proof. reflexivity. Qed.
(** SHA-2 on 64-bit words (FIPS 180-4, 6.4) with other round constants, and with the halves of each round constant exchanged *)
Definition with_constants (k : list N) : sha2 :=
  mkSha2 (word sha2_64) (wbytes sha2_64) (rounds sha2_64) (Sigma0 sha2_64) (Sigma1 sha2_64) (sigma0 sha2_64) (sigma1 sha2_64) k.
Definition sha2_64_swapped : sha2 := with_constants (map swap_halves (Kt sha2_64)).

(** the sponge of FIPS 202, section 4, on a machine that reads and writes each 64-bit lane in the opposite byte order: every 8 bytes are
    reversed on their way in and on their way out *)
From Verif Require Import SFips202.
Definition swap_lanes (l : list N) : list N := concat (map (@rev N) (pieces 8 l)).
Definition swap_lane_bits (b : bits) : bits := bits_of_bytes (swap_lanes (bytes_of_bits b)).
Definition sponge_swapped (r : nat) (N : bits) (d : nat) : bits :=
  firstn d (swap_lane_bits (squeeze (d / r + 1) r (absorb r (swap_lane_bits (N ++ pad10star1 r (length N)))))).
(** SHA-3 and the extendable-output functions (FIPS 202, 6) over that sponge *)
Definition sha3_swapped (c d : nat) (M : list N) : list N := bytes_of_bits (sponge_swapped (1600 - c) (bits_of_bytes M ++ [false; true]) d).
Definition shake_swapped (c d : nat) (M : list N) : list N := bytes_of_bits (sponge_swapped (1600 - c) (bits_of_bytes M ++ [true; true; true; true]) d).
Definition rawshake_swapped (c d : nat) (M : list N) : list N := bytes_of_bits (sponge_swapped (1600 - c) (bits_of_bytes M ++ [true; true]) d).
Example swap_l : swap_lanes [1; 2; 3; 4; 5; 6; 7; 8; 11; 12; 13; 14; 15; 16; 17; 18] = [8; 7; 6; 5; 4; 3; 2; 1; 18; 17; 16; 15; 14; 13; 12; 11].
Proof. reflexivity. Qed.
