(** Specification side of C56, C57, C59. *)
From Coq Require Import String.
From Verif Require Import Base MHmac.
Local Open Scope N_scope.

(** ** Trimming zero bytes, as the name of the functions and the member [ws] promise *)
Fixpoint without_leading (z : N) (s : list N) : list N := match s with c :: r => if c =? z then without_leading z r else s | [] => [] end.
Definition without_trailing (z : N) (s : list N) : list N := rev (without_leading z (rev s)).

(** ** The algorithms' names *)
(** the enumerators of algorithm-choice.h *)
Definition name (a : alg_choice) : list N :=
  match a with
  | A_MD5 => chars "MD5" | A_SHA1 => chars "SHA1" | A_SHA224 => chars "SHA224" | A_SHA256 => chars "SHA256" | A_SHA384 => chars "SHA384"
  | A_SHA512 => chars "SHA512" | A_SHA512_224 => chars "SHA512_224" | A_SHA512_256 => chars "SHA512_256"
  | A_SHA3_224 => chars "SHA3_224" | A_SHA3_256 => chars "SHA3_256" | A_SHA3_384 => chars "SHA3_384" | A_SHA3_512 => chars "SHA3_512"
  | A_RawSHAKE128 => chars "RawSHAKE128" | A_SHAKE128 => chars "SHAKE128" | A_RawSHAKE256 => chars "RawSHAKE256" | A_SHAKE256 => chars "SHAKE256"
  end.
(** ASCII lower-casing *)
Definition downcase (c : N) : N := if (65 <=? c) && (c <=? 90) then c + 32 else c.

(** ** Sizes by the standards: digest (FIPS 180-4 figure 1, FIPS 202 section 6, RFC 1321) and block or rate, in bits *)
Definition std_digest_bits (a : alg_choice) : N :=
  match a with
  | A_MD5 => 128 | A_SHA1 => 160 | A_SHA224 | A_SHA512_224 | A_SHA3_224 => 224 | A_SHA256 | A_SHA512_256 | A_SHA3_256 => 256
  | A_SHA384 | A_SHA3_384 => 384 | A_SHA512 | A_SHA3_512 => 512
  | A_RawSHAKE128 | A_SHAKE128 => 2 * 128 | A_RawSHAKE256 | A_SHAKE256 => 2 * 256   (* the length that gives full strength *)
  end.
Definition std_block_bits (a : alg_choice) : N :=
  match a with
  | A_MD5 | A_SHA1 | A_SHA224 | A_SHA256 => 512
  | A_SHA384 | A_SHA512 | A_SHA512_224 | A_SHA512_256 => 1024
  | A_SHA3_224 => 1600 - 2 * 224 | A_SHA3_256 => 1600 - 2 * 256 | A_SHA3_384 => 1600 - 2 * 384 | A_SHA3_512 => 1600 - 2 * 512
  | A_RawSHAKE128 | A_SHAKE128 => 1600 - 2 * 128 | A_RawSHAKE256 | A_SHAKE256 => 1600 - 2 * 256
  end.
