(** All the library's hash functions: the code's interface, the pieces and messages covered, and the function computed. *)
From Verif Require SFips202 SMd5.
From Verif Require Import Base SHex SFips180 SShaLib MSha MFront MMd5 MKeccak SHash SKeccakFns.
Local Open Scope N_scope.

(** the function the library computes (for SHA-1/SHA-2 with its padding deviation, SShaLib.v) *)
Inductive hash_fn : hash_impl -> (list N -> Prop) -> (list N -> Prop) -> (list N -> list N) -> Prop :=
| hf_sha1 : hash_fn (sha_impl alg_sha1) int_piece (bits_below 64) lib_SHA1
| hf_sha224 : hash_fn (sha_impl alg_sha224) int_piece (bits_below 64) (lib_sha2_hash sha2_32 IV_224 28)
| hf_sha256 : hash_fn (sha_impl alg_sha256) int_piece (bits_below 64) (lib_sha2_hash sha2_32 IV_256 32)
| hf_sha384 : hash_fn (sha_impl alg_sha384) int_piece (bits_below 128) (lib_sha2_hash sha2_64 IV_384 48)
| hf_sha512 : hash_fn (sha_impl alg_sha512) int_piece (bits_below 128) (lib_sha2_hash sha2_64 IV_512 64)
| hf_sha512_224 : hash_fn (sha_impl alg_sha512_224) int_piece (bits_below 128) (lib_sha2_hash sha2_64 IV_512_224 28)
| hf_sha512_256 : hash_fn (sha_impl alg_sha512_256) int_piece (bits_below 128) (lib_sha2_hash sha2_64 IV_512_256 32)
(** MD5 with undefined or arbitrary contents of the uninitialised variable: no empty pieces *)
| hf_md5 garbage : hash_fn (md5_impl garbage) (fun p => bytes_ok p /\ p <> []) (fun _ => True) SMd5.MD5
| hf_md5_nonzero v : v <> 0 -> hash_fn (md5_impl (Some v)) bytes_ok (fun _ => True) SMd5.MD5
| hf_keccak I rb H : keccak_fn I rb H -> hash_fn I keccak_piece (fun _ => True) H.

(** room for the 0x80 byte and the length field in the last block *)
Definition leaves_room (bs lb : nat) (m : list N) : Prop := (length m mod bs < bs - lb)%nat.
(** the standards' functions, on the messages for which the library meets them *)
Inductive hash_std : hash_impl -> (list N -> Prop) -> (list N -> Prop) -> (list N -> list N) -> Prop :=
| hs_sha1 : hash_std (sha_impl alg_sha1) int_piece (fun m => bits_below 64 m /\ leaves_room 64 8 m) SHA1
| hs_sha224 : hash_std (sha_impl alg_sha224) int_piece (fun m => bits_below 64 m /\ leaves_room 64 8 m) SHA224
| hs_sha256 : hash_std (sha_impl alg_sha256) int_piece (fun m => bits_below 64 m /\ leaves_room 64 8 m) SHA256
| hs_sha384 : hash_std (sha_impl alg_sha384) int_piece (fun m => bits_below 128 m /\ leaves_room 128 16 m) SHA384
| hs_sha512 : hash_std (sha_impl alg_sha512) int_piece (fun m => bits_below 128 m /\ leaves_room 128 16 m) SHA512
| hs_sha512_224 : hash_std (sha_impl alg_sha512_224) int_piece (fun m => bits_below 128 m /\ leaves_room 128 16 m) SHA512_224
| hs_sha512_256 : hash_std (sha_impl alg_sha512_256) int_piece (fun m => bits_below 128 m /\ leaves_room 128 16 m) SHA512_256
| hs_md5 garbage : hash_std (md5_impl garbage) (fun p => bytes_ok p /\ p <> []) (fun _ => True) SMd5.MD5
| hs_md5_nonzero v : v <> 0 -> hash_std (md5_impl (Some v)) bytes_ok (fun _ => True) SMd5.MD5
| hs_keccak I rb H : keccak_fn I rb H -> hash_std I keccak_piece (fun _ => True) H.

(** what a file hashed through a context is cut into: 1024-byte pieces, then a shorter one (empty when the
    size is a multiple of 1024) *)
Fixpoint file_pieces (fuel : nat) (m : list N) : list (list N) :=
  match fuel with
  | O => [m]
  | S fuel => if Nat.leb 1024 (length m) then firstn 1024 m :: file_pieces fuel (skipn 1024 m) else [m]
  end.
(** the inputs that are not NULL *)
Fixpoint present (inputs : list (option (list N))) : list (list N) :=
  match inputs with [] => [] | None :: r => present r | Some p :: r => p :: present r end.

(** ** What a second digest of the same context yields *)
(** the block 0x80 00 ... 00 followed by a length field *)
Definition tail_block (bs lb : nat) (len : N) : list N := [0x80] ++ repeat 0 (bs - lb - 1) ++ be_bytes lb len.
(** SHA-1: one more compression, with the length zero (it was wiped) *)
Definition again_SHA1 (m : list N) : list N :=
  flat_map (be_bytes 4) (sha1_compress (lib_iterate 64 8 (be_bytes 8) sha1_compress sha1_IV m) (tail_block 64 8 0)).
(** SHA-2: one more compression, with the length of the message *)
Definition again_sha2 (F : sha2) (iv : list N) (digest : nat) (m : list N) : list N :=
  firstn digest (flat_map (be_bytes (wbytes F))
    (sha2_compress F (lib_iterate (16 * wbytes F) (2 * wbytes F) (be_bytes (2 * wbytes F)) (sha2_compress F) iv m)
       (tail_block (16 * wbytes F) (2 * wbytes F) (8 * N.of_nat (length m))))).
(** MD5: the digest of the padded message *)
Definition again_MD5 (m : list N) : list N := SMd5.MD5 (padded 64 8 (SMd5.le_bytes 8) m).
(** SHA-3: the next digest-size part of the sponge's output *)
Definition again_sha3 (cap d : nat) (m : list N) : list N :=
  skipn (d / 8) (SFips202.bytes_of_bits (SFips202.KECCAK cap (SFips202.bits_of_bytes m ++ [false; true]) (2 * d))).
(** interface, pieces, messages, first digest, second digest *)
Inductive again_fn : hash_impl -> (list N -> Prop) -> (list N -> Prop) -> (list N -> list N) -> (list N -> list N) -> Prop :=
| ag_sha1 : again_fn (sha_impl alg_sha1) int_piece (bits_below 64) lib_SHA1 again_SHA1
| ag_sha224 : again_fn (sha_impl alg_sha224) int_piece (bits_below 64) (lib_sha2_hash sha2_32 IV_224 28) (again_sha2 sha2_32 IV_224 28)
| ag_sha256 : again_fn (sha_impl alg_sha256) int_piece (bits_below 64) (lib_sha2_hash sha2_32 IV_256 32) (again_sha2 sha2_32 IV_256 32)
| ag_sha384 : again_fn (sha_impl alg_sha384) int_piece (bits_below 128) (lib_sha2_hash sha2_64 IV_384 48) (again_sha2 sha2_64 IV_384 48)
| ag_sha512 : again_fn (sha_impl alg_sha512) int_piece (bits_below 128) (lib_sha2_hash sha2_64 IV_512 64) (again_sha2 sha2_64 IV_512 64)
| ag_sha512_224 : again_fn (sha_impl alg_sha512_224) int_piece (bits_below 128) (lib_sha2_hash sha2_64 IV_512_224 28) (again_sha2 sha2_64 IV_512_224 28)
| ag_sha512_256 : again_fn (sha_impl alg_sha512_256) int_piece (bits_below 128) (lib_sha2_hash sha2_64 IV_512_256 32) (again_sha2 sha2_64 IV_512_256 32)
| ag_md5 garbage : again_fn (md5_impl garbage) (fun p => bytes_ok p /\ p <> []) (fun _ => True) SMd5.MD5 again_MD5
| ag_sha3_224 : again_fn impl_sha3_224 keccak_piece (fun _ => True) SFips202.SHA3_224 (again_sha3 448 224)
| ag_sha3_256 : again_fn impl_sha3_256 keccak_piece (fun _ => True) SFips202.SHA3_256 (again_sha3 512 256)
| ag_sha3_384 : again_fn impl_sha3_384 keccak_piece (fun _ => True) SFips202.SHA3_384 (again_sha3 768 384)
| ag_sha3_512 : again_fn impl_sha3_512 keccak_piece (fun _ => True) SFips202.SHA3_512 (again_sha3 1024 512).

(** init, the updates, digest: what ends up in the caller's buffer *)
Definition hash_run (I : hash_impl) (g : ictx I) (ps : list (list N)) (out : list N) : outcome (list N) :=
  c <- updates I (iinit I g) ps ;; omap snd (idigest I c out).
