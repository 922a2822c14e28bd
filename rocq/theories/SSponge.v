(** Specification side of C80: the blocks a sponge absorbs, and inner collisions (FIPS 202 bit strings). *)
From Verif Require Import Base MSha MFront MKeccak SFips202.
Local Open Scope N_scope.

(** the eight functions: initialiser and digest of the code, bytes of output, rate in bytes, suffix appended to the message *)
Inductive sponge_fn : (kctx -> kctx) -> (kctx -> list N -> outcome (kctx * list N)) -> nat -> nat -> bits -> Prop :=
| sp_sha3_224 : sponge_fn (iinit impl_sha3_224) (idigest impl_sha3_224) 28 144 [false; true]
| sp_sha3_256 : sponge_fn (iinit impl_sha3_256) (idigest impl_sha3_256) 32 136 [false; true]
| sp_sha3_384 : sponge_fn (iinit impl_sha3_384) (idigest impl_sha3_384) 48 104 [false; true]
| sp_sha3_512 : sponge_fn (iinit impl_sha3_512) (idigest impl_sha3_512) 64 72 [false; true]
| sp_shake128 n : 8 * N.of_nat n < 2 ^ 32 -> sponge_fn (iinit (impl_shake128 (8 * N.of_nat n))) (idigest (impl_shake128 (8 * N.of_nat n))) n 168 [true; true; true; true]
| sp_shake256 n : 8 * N.of_nat n < 2 ^ 32 -> sponge_fn (iinit (impl_shake256 (8 * N.of_nat n))) (idigest (impl_shake256 (8 * N.of_nat n))) n 136 [true; true; true; true]
| sp_rawshake128 n : 8 * N.of_nat n < 2 ^ 32 -> sponge_fn (iinit (impl_rawshake128 (8 * N.of_nat n))) (idigest (impl_rawshake128 (8 * N.of_nat n))) n 168 [true; true]
| sp_rawshake256 n : 8 * N.of_nat n < 2 ^ 32 -> sponge_fn (iinit (impl_rawshake256 (8 * N.of_nat n))) (idigest (impl_rawshake256 (8 * N.of_nat n))) n 136 [true; true].

(** the blocks of [r] bits that are absorbed for the message [m] *)
Definition sponge_blocks (r : nat) (suffix : bits) (m : list N) : list bits :=
  let s := bits_of_bytes m ++ suffix in let t := s ++ pad10star1 r (length s) in split_bits (length t) r t.
(** the 1600-bit state after absorbing blocks *)
Definition absorbed (blocks : list bits) : bits := fold_left absorb_block blocks (repeat false 1600).
(** two different sequences of blocks, each absorbed before the last block of its message, lead to states that agree in the capacity part
    (all bits after the first [r]) *)
Definition inner_collision (r : nat) (bs bs' : list bits) : Prop :=
  exists p q p' q', bs = p ++ q /\ bs' = p' ++ q' /\ q <> [] /\ q' <> [] /\ p <> p' /\ skipn r (absorbed p) = skipn r (absorbed p').
(** update called for one piece after the other *)
Fixpoint feed_all (c : kctx) (ps : list (list N)) : outcome kctx :=
  match ps with [] => Ret c | p :: ps => c <- keccak_update c p ;; feed_all c ps end.
