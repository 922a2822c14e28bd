(** C85, specification: the extendable-output functions asked for numbers of bits. *)
From Verif Require Import Base MSha MFront MKeccak SFips202.
Local Open Scope N_scope.

(** the four functions: initialiser, rate in bits, FIPS 202 function of message and output bits *)
Inductive xof_bits : (kctx -> kctx) -> nat -> (list N -> nat -> list N) -> Prop :=
| xb_shake128 : xof_bits (iinit (impl_shake128 0)) 1344 SHAKE128
| xb_shake256 : xof_bits (iinit (impl_shake256 0)) 1088 SHAKE256
| xb_rawshake128 : xof_bits (iinit (impl_rawshake128 0)) 1344 RawSHAKE128
| xb_rawshake256 : xof_bits (iinit (impl_rawshake256 0)) 1088 RawSHAKE256.

(** A client of one context: feed a piece, or call digest with a number of bits (a size_t) and a buffer.
    The result is the list of the buffers after the digest calls. *)
Inductive bit_op := Give (p : list N) | Ask (bits : N) (buffer : list N).
Fixpoint bit_run (c : kctx) (ops : list bit_op) : outcome (list (list N)) :=
  match ops with
  | [] => Ret []
  | Give p :: ops => c <- keccak_update c p ;; bit_run c ops
  | Ask bits buf :: ops => '(c, o) <- shake_digest bits c buf ;; r <- bit_run c ops ;; Ret (o :: r)
  end.

(** bytes a, a + 1, ..., a + n - 1 of the infinite output of [H] on [M] *)
Definition stretch (H : list N -> nat -> list N) (M : list N) (a n : nat) : list N := skipn a (H M (8 * (a + n))%nat).

Local Open Scope nat_scope.
(** what a call for [b] bits delivers when [p] bits have been asked for before: whole bytes only, from the byte that
    contains bit [p] on; at the end of the current block of [rate] bits the count starts at a byte again *)
Definition delivered (rate : nat) (bytes : nat -> nat -> list N) (p b : nat) : list N :=
  let left := rate - p mod rate in
  if Nat.leb b left then bytes (p / 8) (b / 8) else bytes (p / 8) (left / 8) ++ bytes ((p + left) / 8) ((b - left) / 8).
(** the bits a request is understood as: out_length is 32 bits wide *)
Definition understood (bits : N) : nat := N.to_nat (bits mod 2 ^ 32).
(** the buffers after the calls *)
Fixpoint expected (rate : nat) (bytes : nat -> nat -> list N) (p : nat) (ops : list bit_op) : list (list N) :=
  match ops with
  | [] => []
  | Give _ :: ops => expected rate bytes p ops
  | Ask bits buf :: ops =>
      (delivered rate bytes p (understood bits) ++ skipn (length (delivered rate bytes p (understood bits))) buf)
      :: expected rate bytes (p + understood bits) ops
  end.
(** every buffer holds the bits asked for (rounded up to bytes is more than enough) *)
Definition roomy_op (o : bit_op) : Prop := match o with Give _ => True | Ask bits buf => understood bits / 8 <= length buf end.
