(** RFC 2104, and the table of the hash functions HMAC is offered with. *)
From Verif Require SFips202 SMd5.
From Verif Require Import Base SFips180 SShaLib MSha MFront MMd5 MKeccak SHash SKeccakFns SHashFns MHmac.
Local Open Scope N_scope.

(** RFC 2104 section 2: B is the block size of H in bytes *)
Section Rfc2104.
Variable H : list N -> list N.
Variable B : nat.
(** "Applications that use keys longer than B bytes will first hash the key using H"; "append zeros to
    the end of K to create a B byte string" *)
Definition key_block (k : list N) : list N :=
  let k := if Nat.leb (length k) B then k else H k in k ++ repeat 0 (B - length k).
Definition xor_pad (v : N) (k : list N) : list N := map (fun b => N.lxor b v) k.
Definition HMAC (k m : list N) : list N :=
  H (xor_pad 0x5c (key_block k) ++ H (xor_pad 0x36 (key_block k) ++ m)).
End Rfc2104.

(** enough room in the length counter for the key block and the message *)
Definition with_block (bs : nat) (b : N) (m : list N) : Prop := 8 * N.of_nat (bs + length m) < 2 ^ b.
Definition any_message (m : list N) : Prop := True.
Definition md5_piece (p : list N) : Prop := bytes_ok p /\ p <> [].

(** choice, pieces and messages covered, the hash function the library computes, its block and digest size *)
Inductive choice_lib : alg_choice -> (list N -> Prop) -> (list N -> Prop) -> (list N -> list N) -> nat -> nat -> Prop :=
| cl_md5 : choice_lib A_MD5 md5_piece any_message SMd5.MD5 64 16
| cl_sha1 : choice_lib A_SHA1 int_piece (with_block 64 64) lib_SHA1 64 20
| cl_sha224 : choice_lib A_SHA224 int_piece (with_block 64 64) (lib_sha2_hash sha2_32 IV_224 28) 64 28
| cl_sha256 : choice_lib A_SHA256 int_piece (with_block 64 64) (lib_sha2_hash sha2_32 IV_256 32) 64 32
| cl_sha384 : choice_lib A_SHA384 int_piece (with_block 128 128) (lib_sha2_hash sha2_64 IV_384 48) 128 48
| cl_sha512 : choice_lib A_SHA512 int_piece (with_block 128 128) (lib_sha2_hash sha2_64 IV_512 64) 128 64
| cl_sha512_224 : choice_lib A_SHA512_224 int_piece (with_block 128 128) (lib_sha2_hash sha2_64 IV_512_224 28) 128 28
| cl_sha512_256 : choice_lib A_SHA512_256 int_piece (with_block 128 128) (lib_sha2_hash sha2_64 IV_512_256 32) 128 32
| cl_sha3_224 : choice_lib A_SHA3_224 keccak_piece any_message SFips202.SHA3_224 144 28
| cl_sha3_256 : choice_lib A_SHA3_256 keccak_piece any_message SFips202.SHA3_256 136 32
| cl_sha3_384 : choice_lib A_SHA3_384 keccak_piece any_message SFips202.SHA3_384 104 48
| cl_sha3_512 : choice_lib A_SHA3_512 keccak_piece any_message SFips202.SHA3_512 72 64.
(** the same for the standards' hash functions, on the messages for which the library's agrees *)
Inductive choice_std : alg_choice -> (list N -> Prop) -> (list N -> Prop) -> (list N -> list N) -> nat -> nat -> Prop :=
| cs_md5 : choice_std A_MD5 md5_piece any_message SMd5.MD5 64 16
| cs_sha1 : choice_std A_SHA1 int_piece (fun m => with_block 64 64 m /\ leaves_room 64 8 m) SHA1 64 20
| cs_sha224 : choice_std A_SHA224 int_piece (fun m => with_block 64 64 m /\ leaves_room 64 8 m) SHA224 64 28
| cs_sha256 : choice_std A_SHA256 int_piece (fun m => with_block 64 64 m /\ leaves_room 64 8 m) SHA256 64 32
| cs_sha384 : choice_std A_SHA384 int_piece (fun m => with_block 128 128 m /\ leaves_room 128 16 m) SHA384 128 48
| cs_sha512 : choice_std A_SHA512 int_piece (fun m => with_block 128 128 m /\ leaves_room 128 16 m) SHA512 128 64
| cs_sha512_224 : choice_std A_SHA512_224 int_piece (fun m => with_block 128 128 m /\ leaves_room 128 16 m) SHA512_224 128 28
| cs_sha512_256 : choice_std A_SHA512_256 int_piece (fun m => with_block 128 128 m /\ leaves_room 128 16 m) SHA512_256 128 32
| cs_sha3_224 : choice_std A_SHA3_224 keccak_piece any_message SFips202.SHA3_224 144 28
| cs_sha3_256 : choice_std A_SHA3_256 keccak_piece any_message SFips202.SHA3_256 136 32
| cs_sha3_384 : choice_std A_SHA3_384 keccak_piece any_message SFips202.SHA3_384 104 48
| cs_sha3_512 : choice_std A_SHA3_512 keccak_piece any_message SFips202.SHA3_512 72 64.

(** an HMAC context whose arrays have their declared sizes *)
Definition hmac_typed {I} (c : hmac_ctx I) : Prop :=
  typed I (hash_ctx c) /\ length (k_i_pad c) = iblock I /\ length (k_o_pad c) = iblock I.
(** set the key, add the pieces, take the digest: what ends up in the caller's buffer *)
Definition hmac_run (I : hash_impl) (c : hmac_ctx I) (key : list N) (ps : list (list N)) (l : hmac_locals I) (out : list N) : outcome (list N) :=
  c <- hmac_ops I c (HKey key :: map HUpdate ps) ;; omap snd (hmac_digest I l c out).
(** HMACEncoder: the bytes an operation adds, and whether its argument is sound (C strings are terminated) *)
Definition op_bytes (o : enc_op) : list N := match o with EUpdate p => p | ECstr m => upto_nul m | EReset => [] end.
Definition op_ok (P : list N -> Prop) (o : enc_op) : Prop :=
  match o with EUpdate p => P p | ECstr m => In 0 m /\ P (upto_nul m) | EReset => True end.
(** construct an encoder, use it, take the digest *)
Definition encoder_run (o : option hash_impl) (a : alg_choice) (r : raw_object o) (key : list N) (ops : list enc_op)
    (l : eloc o) (l_out : list N) : outcome (option (list N)) :=
  e <- enc_new o a r key ;; e <- enc_ops o e ops ;; omap snd (enc_digest o l_out l e).
(** digest_size() and block_size() of a new object *)
Definition encoder_sizes (o : option hash_impl) (a : alg_choice) (r : raw_object o) (key : list N) : outcome (N * N) :=
  omap (fun e => (e_digsz e, e_blocksz e)) (enc_new o a r key).
(** the arrays in the uninitialised memory have their declared sizes *)
Definition ectx_ok {o : option hash_impl} : ectx o -> Prop := match o with Some J => @hmac_typed J | None => fun _ => True end.
Definition eloc_ok {o : option hash_impl} : eloc o -> Prop := match o with Some J => @locals_ok J | None => fun _ => True end.
