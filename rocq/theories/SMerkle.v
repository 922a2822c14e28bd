(** Specification side of C67: collisions of an iterated hash function and of its compression function. *)
From Verif Require SMd5.
From Verif Require Import Base SFips180 SShaLib MSha MFront MMd5 SHash.
Local Open Scope N_scope.

(** in hashing [blocks], the compression function is at some point applied to the chaining value [s] and the block [b] *)
Definition compressed (comp : list N -> list N -> list N) (iv : list N) (blocks : list (list N)) (s b : list N) : Prop :=
  exists before after, blocks = before ++ b :: after /\ s = fold_left comp before iv.
(** the two computations contain a collision of the compression function: different arguments, same result *)
Definition collide (comp : list N -> list N -> list N) (iv : list N) (blocks blocks' : list (list N)) : Prop :=
  exists s b s' b', compressed comp iv blocks s b /\ compressed comp iv blocks' s' b' /\ (s <> s' \/ b <> b') /\ comp s b = comp s' b'.

(** the iterated hash functions of the library: code, pieces accepted, bound 2^n on the message's bits, compression function,
    initial value, blocks that a message is turned into, whether the digest is the whole last chaining value *)
Inductive iterated : hash_impl -> (list N -> Prop) -> N -> (list N -> list N -> list N) -> list N -> (list N -> list (list N)) -> bool -> Prop :=
| it_md5 garbage : iterated (md5_impl garbage) (fun p => bytes_ok p /\ p <> []) 64 SMd5.md5_compress SMd5.md5_IV (fun m => pieces 64 (padded 64 8 (SMd5.le_bytes 8) m)) true
| it_sha1 : iterated (sha_impl alg_sha1) int_piece 64 sha1_compress sha1_IV (fun m => pieces 64 (lib_padded 64 8 (be_bytes 8) m)) true
| it_sha224 : iterated (sha_impl alg_sha224) int_piece 64 (sha2_compress sha2_32) IV_224 (fun m => pieces 64 (lib_padded 64 8 (be_bytes 8) m)) false
| it_sha256 : iterated (sha_impl alg_sha256) int_piece 64 (sha2_compress sha2_32) IV_256 (fun m => pieces 64 (lib_padded 64 8 (be_bytes 8) m)) true
| it_sha384 : iterated (sha_impl alg_sha384) int_piece 128 (sha2_compress sha2_64) IV_384 (fun m => pieces 128 (lib_padded 128 16 (be_bytes 16) m)) false
| it_sha512 : iterated (sha_impl alg_sha512) int_piece 128 (sha2_compress sha2_64) IV_512 (fun m => pieces 128 (lib_padded 128 16 (be_bytes 16) m)) true
| it_sha512_224 : iterated (sha_impl alg_sha512_224) int_piece 128 (sha2_compress sha2_64) IV_512_224 (fun m => pieces 128 (lib_padded 128 16 (be_bytes 16) m)) false
| it_sha512_256 : iterated (sha_impl alg_sha512_256) int_piece 128 (sha2_compress sha2_64) IV_512_256 (fun m => pieces 128 (lib_padded 128 16 (be_bytes 16) m)) false.
