(** Specification side of C72: calls with null pointers. *)
From Verif Require SMd5.
From Verif Require Import Base SFips180 SShaLib MSha MFront MMd5 MKeccak SHash MNull.
Local Open Scope N_scope.

(** MD5, SHA-1 and SHA-2: interface, pieces and messages covered, function computed (as in SHashFns.v) *)
Inductive checked_fn : hash_impl -> (list N -> Prop) -> (list N -> Prop) -> (list N -> list N) -> Prop :=
| ck_sha1 : checked_fn (sha_impl alg_sha1) int_piece (bits_below 64) lib_SHA1
| ck_sha224 : checked_fn (sha_impl alg_sha224) int_piece (bits_below 64) (lib_sha2_hash sha2_32 IV_224 28)
| ck_sha256 : checked_fn (sha_impl alg_sha256) int_piece (bits_below 64) (lib_sha2_hash sha2_32 IV_256 32)
| ck_sha384 : checked_fn (sha_impl alg_sha384) int_piece (bits_below 128) (lib_sha2_hash sha2_64 IV_384 48)
| ck_sha512 : checked_fn (sha_impl alg_sha512) int_piece (bits_below 128) (lib_sha2_hash sha2_64 IV_512 64)
| ck_sha512_224 : checked_fn (sha_impl alg_sha512_224) int_piece (bits_below 128) (lib_sha2_hash sha2_64 IV_512_224 28)
| ck_sha512_256 : checked_fn (sha_impl alg_sha512_256) int_piece (bits_below 128) (lib_sha2_hash sha2_64 IV_512_256 32)
| ck_md5 garbage : checked_fn (md5_impl garbage) (fun p => bytes_ok p /\ p <> []) (fun _ => True) SMd5.MD5.

(** the data passed to the updates of a sequence of calls *)
Fixpoint data_of (ks : list call) : list (list N) :=
  match ks with [] => [] | Update (Some p) :: ks => p :: data_of ks | _ :: ks => data_of ks end.
(** no digest is taken: every digest call has a null output *)
Definition no_digest (k : call) : Prop := match k with Digest (Some _) => False | _ => True end.

(** the initialisers of SHA-3 and of the XOFs *)
Definition keccak_inits : list (kctx -> kctx) :=
  [iinit impl_sha3_224; iinit impl_sha3_256; iinit impl_sha3_384; iinit impl_sha3_512;
   iinit (impl_shake128 0); iinit (impl_shake256 0); iinit (impl_rawshake128 0); iinit (impl_rawshake256 0)].
