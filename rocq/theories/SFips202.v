(** FIPS 202 (Keccak-p[1600,24], SHA-3, SHAKE, RawSHAKE), written from the standard, bit by bit;
    independent of the model. *)
From Verif Require Import Base.

Definition bits := list bool.
(** 3.1: state arrays, w = 64, b = 1600 *)
Definition state := nat -> nat -> nat -> bool.
Definition w := 64.
Definition to_state (S : bits) : state := fun x y z => nth (w * (5 * y + x) + z) S false.
Definition to_string (A : state) : bits :=
  map (fun i => A ((i / w) mod 5) (i / w / 5) (i mod w)) (seq 0 1600).
(** modular arithmetic on indices: (a - b) mod n, for b <= n *)
Definition minus_mod (a b n : nat) : nat := (a + (n - b)) mod n.

(** 3.2.1 theta *)
Definition theta_C (A : state) x z := xorb (A x 0 z) (xorb (A x 1 z) (xorb (A x 2 z) (xorb (A x 3 z) (A x 4 z)))).
Definition theta_D (A : state) x z := xorb (theta_C A (minus_mod x 1 5) z) (theta_C A ((x + 1) mod 5) (minus_mod z 1 w)).
Definition theta (A : state) : state := fun x y z => xorb (A x y z) (theta_D A x z).
(** 3.2.2 rho: walk (x,y) := (y, 2x+3y) from (1,0); the t-th lane visited (t = 0..23) is rotated by (t+1)(t+2)/2 *)
Fixpoint rho_walk (n t x y tx ty : nat) : nat :=
  match n with
  | O => 0
  | S n => if (Nat.eqb x tx && Nat.eqb y ty)%bool then (t + 1) * (t + 2) / 2
           else rho_walk n (t + 1) y ((2 * x + 3 * y) mod 5) tx ty
  end.
Definition rho_offset (x y : nat) : nat := if (Nat.eqb x 0 && Nat.eqb y 0)%bool then 0 else rho_walk 24 0 1 0 x y.
Definition rho (A : state) : state := fun x y z => A x y (minus_mod z (rho_offset x y mod w) w).
(** 3.2.3 pi *)
Definition pi (A : state) : state := fun x y z => A ((x + 3 * y) mod 5) x z.
(** 3.2.4 chi *)
Definition chi (A : state) : state := fun x y z =>
  xorb (A x y z) (andb (xorb (A ((x + 1) mod 5) y z) true) (A ((x + 2) mod 5) y z)).
(** 3.2.5 iota; Algorithm 5: rc(t), an 8-bit register R *)
Definition lfsr_step (R : bits) : bits :=
  match false :: R with
  | [r0; r1; r2; r3; r4; r5; r6; r7; r8] => [xorb r0 r8; r1; r2; r3; xorb r4 r8; xorb r5 r8; xorb r6 r8; r7]
  | _ => R
  end.
Definition rc (t : nat) : bool :=
  nth 0 (Nat.iter (t mod 255) lfsr_step [true; false; false; false; false; false; false; false]) false.
(** RC[2^j - 1] = rc(j + 7 ir) for j = 0..6, all other bits 0 *)
Definition RC (ir z : nat) : bool :=
  existsb (fun j => Nat.eqb z (2 ^ j - 1) && rc (j + 7 * ir))%bool (seq 0 7).
Definition iota (A : state) (ir : nat) : state := fun x y z =>
  if (Nat.eqb x 0 && Nat.eqb y 0)%bool then xorb (A x y z) (RC ir z) else A x y z.
(** 3.3 *)
Definition Rnd (A : state) (ir : nat) : state := iota (chi (pi (rho (theta A)))) ir.
Definition keccak_f (S : bits) : bits := to_string (fold_left Rnd (seq 0 24) (to_state S)).

(** 4: sponge with multi-rate padding, rate r, output d bits *)
Definition pad10star1 (r m : nat) : bits := [true] ++ repeat false ((2 * r - m mod r - 2) mod r) ++ [true].
Fixpoint xor_bits (a b : bits) : bits :=
  match a, b with x :: a, y :: b => xorb x y :: xor_bits a b | a, [] => a | [], _ => [] end.
(** S xor (P || 0^c) *)
Definition absorb_block (S P : bits) : bits := keccak_f (xor_bits S P).
Fixpoint split_bits (fuel r : nat) (P : bits) : list bits :=
  match fuel, P with
  | O, _ | _, [] => []
  | S fuel, _ => firstn r P :: split_bits fuel r (skipn r P)
  end.
Definition absorb (r : nat) (P : bits) : bits := fold_left absorb_block (split_bits (length P) r P) (repeat false 1600).
Fixpoint squeeze (k r : nat) (S : bits) : bits :=
  match k with O => [] | Datatypes.S k => firstn r S ++ squeeze k r (keccak_f S) end.
Definition sponge (r : nat) (N : bits) (d : nat) : bits :=
  firstn d (squeeze (d / r + 1) r (absorb r (N ++ pad10star1 r (length N)))).
Definition KECCAK (c : nat) (N : bits) (d : nat) : bits := sponge (1600 - c) N d.

(** B.1: strings of bytes, least significant bit first *)
Definition byte_bits (b : N) : bits := map (fun i => N.testbit b (N.of_nat i)) (seq 0 8).
Definition bits_of_bytes (l : list N) : bits := flat_map byte_bits l.
Fixpoint bits_value (l : bits) : N := match l with [] => 0 | b :: l => (if b then 1 else 0) + 2 * bits_value l end%N.
Fixpoint bytes_of (fuel : nat) (l : bits) : list N :=
  match fuel, l with O, _ | _, [] => [] | S f, _ => bits_value (firstn 8 l) :: bytes_of f (skipn 8 l) end.
Definition bytes_of_bits (l : bits) : list N := bytes_of (length l) l.

(** 6.1, 6.2, 6.3 (bytes to bytes) *)
Definition sha3 (c d : nat) (M : list N) : list N := bytes_of_bits (KECCAK c (bits_of_bytes M ++ [false; true]) d).
Definition SHA3_224 := sha3 448 224.
Definition SHA3_256 := sha3 512 256.
Definition SHA3_384 := sha3 768 384.
Definition SHA3_512 := sha3 1024 512.
Definition SHAKE128 (M : list N) (d : nat) := bytes_of_bits (KECCAK 256 (bits_of_bytes M ++ [true; true; true; true]) d).
Definition SHAKE256 (M : list N) (d : nat) := bytes_of_bits (KECCAK 512 (bits_of_bytes M ++ [true; true; true; true]) d).
Definition RawSHAKE128 (M : list N) (d : nat) := bytes_of_bits (KECCAK 256 (bits_of_bytes M ++ [true; true]) d).
Definition RawSHAKE256 (M : list N) (d : nat) := bytes_of_bits (KECCAK 512 (bits_of_bytes M ++ [true; true]) d).
