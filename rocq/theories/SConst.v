(** Specification side of C32: the rules by which the standards make their constants, in terms of numbers only. *)
From Coq Require Import Reals.
From Verif Require Import Base.
Local Open Scope N_scope.

Definition prime_number (p : N) : Prop := 1 < p /\ forall d, N.divide d p -> d = 1 \/ d = p.
(** p is a prime and the primes below it are exactly [i] in number (so i = 0 for 2) *)
Definition prime_no (i : nat) (p : N) : Prop :=
  prime_number p /\ exists l, NoDup l /\ length l = i /\ forall q, In q l <-> prime_number q /\ q < p.
(** the first w bits of the fractional part of the e-th root of p: with a the integer part, a * 2^w + k is the
    largest integer not above 2^w * p^(1/e) *)
Definition root_bits (e w p k : N) : Prop :=
  k < 2 ^ w /\ exists a, a ^ e <= p < (a + 1) ^ e /\ (a * 2 ^ w + k) ^ e <= p * (2 ^ w) ^ e < (a * 2 ^ w + k + 1) ^ e.
(** the integer part of the real number x *)
Definition integer_part (x : R) (k : N) : Prop := (IZR (Z.of_N k) <= x < IZR (Z.of_N k) + 1)%R.
