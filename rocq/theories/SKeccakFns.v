(** The eight Keccak-based functions: the code's interface, its rate in bytes, the FIPS 202 function. *)
From Verif Require Import Base MSha MFront MKeccak SFips202.
Local Open Scope N_scope.

Inductive keccak_fn : hash_impl -> nat -> (list N -> list N) -> Prop :=
| fn_sha3_224 : keccak_fn impl_sha3_224 144 SHA3_224
| fn_sha3_256 : keccak_fn impl_sha3_256 136 SHA3_256
| fn_sha3_384 : keccak_fn impl_sha3_384 104 SHA3_384
| fn_sha3_512 : keccak_fn impl_sha3_512 72 SHA3_512
(** the XOFs, asked for n bytes *)
| fn_shake128 n : 8 * N.of_nat n < 2 ^ 32 -> keccak_fn (impl_shake128 (8 * N.of_nat n)) 168 (fun M => SHAKE128 M (8 * n))
| fn_shake256 n : 8 * N.of_nat n < 2 ^ 32 -> keccak_fn (impl_shake256 (8 * N.of_nat n)) 136 (fun M => SHAKE256 M (8 * n))
| fn_rawshake128 n : 8 * N.of_nat n < 2 ^ 32 -> keccak_fn (impl_rawshake128 (8 * N.of_nat n)) 168 (fun M => RawSHAKE128 M (8 * n))
| fn_rawshake256 n : 8 * N.of_nat n < 2 ^ 32 -> keccak_fn (impl_rawshake256 (8 * N.of_nat n)) 136 (fun M => RawSHAKE256 M (8 * n)).

(** the XOFs as (initialiser, FIPS 202 function of message and output bits); update is [keccak_update]
    and digest with a given bit length is [shake_digest] for all four *)
Inductive xof_fn : (kctx -> kctx) -> (list N -> nat -> list N) -> Prop :=
| xof_shake128 : xof_fn (iinit (impl_shake128 0)) SHAKE128
| xof_shake256 : xof_fn (iinit (impl_shake256 0)) SHAKE256
| xof_rawshake128 : xof_fn (iinit (impl_rawshake128 0)) RawSHAKE128
| xof_rawshake256 : xof_fn (iinit (impl_rawshake256 0)) RawSHAKE256.

(** A client working on one XOF context: feed a piece, or squeeze into a buffer (of the length asked for).
    The result is everything squeezed, in order. *)
Inductive xof_op := Feed (p : list N) | Squeeze (buffer : list N).
Fixpoint xof_run (c : kctx) (ops : list xof_op) : outcome (list N) :=
  match ops with
  | [] => Ret []
  | Feed p :: ops => c <- keccak_update c p ;; xof_run c ops
  | Squeeze buf :: ops => '(c, o) <- shake_digest (8 * N.of_nat (length buf)) c buf ;; r <- xof_run c ops ;; Ret (o ++ r)
  end.
Definition squeezed (o : xof_op) : nat := match o with Feed _ => 0 | Squeeze b => length b end.
Definition small_op (o : xof_op) : Prop := match o with Feed _ => True | Squeeze b => 8 * N.of_nat (length b) < 2 ^ 32 end.
