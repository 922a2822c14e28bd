(** Specification for C65 and C66. *)
From Verif Require SMd5 SFips202.
From Verif Require Import Base SFips180 SShaLib MFront SHash SHashFns MHmac SHmac MHmac2.
Local Open Scope N_scope.

(** two keys are the same to HMAC with block size [B] when their first B bytes agree, a key shorter
    than that being continued with zeros *)
Definition same_key (B : nat) (k k' : list N) : Prop := forall i, (i < B)%nat -> nth i k 0 = nth i k' 0.

(** what a hash context yields for the message when its digest is taken a second time (SHashFns.v) *)
Definition second_hash (a : alg_choice) : list N -> list N :=
  match a with
  | A_MD5 => again_MD5
  | A_SHA1 => again_SHA1
  | A_SHA224 => again_sha2 sha2_32 IV_224 28
  | A_SHA256 => again_sha2 sha2_32 IV_256 32
  | A_SHA384 => again_sha2 sha2_64 IV_384 48
  | A_SHA512 => again_sha2 sha2_64 IV_512 64
  | A_SHA512_224 => again_sha2 sha2_64 IV_512_224 28
  | A_SHA512_256 => again_sha2 sha2_64 IV_512_256 32
  | A_SHA3_224 => again_sha3 448 224
  | A_SHA3_256 => again_sha3 512 256
  | A_SHA3_384 => again_sha3 768 384
  | A_SHA3_512 => again_sha3 1024 512
  | _ => fun m => m
  end.
(** HMAC with another function for the inner hash *)
Definition HMAC_inner (H H2 : list N -> list N) (B : nat) (k m : list N) : list N :=
  H (xor_pad 0x5c (key_block H B k) ++ H2 (xor_pad 0x36 (key_block H B k) ++ m)).

(** construct an object, make calls on it: the digests *)
Definition encoder_session (o : option hash_impl) (a : alg_choice) (r : raw_object o) (key : list N) (cs : list (enc_call o)) :
  outcome (list (option (list N))) := e <- enc_new o a r key ;; enc_calls o e cs.
Definition data_call {o} (x : enc_op) : enc_call o :=
  match x with EUpdate p => CUpdate p | ECstr m => CCstr m | EReset => CReset end.
Definition is_digest {o} (c : enc_call o) : bool := match c with CDigest _ _ => true | _ => false end.
(** C strings are terminated *)
Definition call_ok {o} (c : enc_call o) : Prop := match c with CCstr m => In 0 m | _ => True end.
