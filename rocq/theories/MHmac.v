(** Model of src/hmac/hmac.c, src/hmac/hmac_encoder.cpp, src/core/algorithm_selectable.cpp, include/libpgfe/algorithm-choice.h. Definitions only. *)
From Verif Require Import Base MSha MFront MMd5 MKeccak.
Local Open Scope N_scope.

(** enum pgfe_algorithm_choice (algorithm-choice.h 16-49) *)
Inductive alg_choice :=
| A_MD5 | A_SHA1 | A_SHA224 | A_SHA256 | A_SHA384 | A_SHA512 | A_SHA512_224 | A_SHA512_256
| A_SHA3_224 | A_SHA3_256 | A_SHA3_384 | A_SHA3_512 | A_RawSHAKE128 | A_SHAKE128 | A_RawSHAKE256 | A_SHAKE256.
(** the enumerators' values *)
Definition alg_code (a : alg_choice) : N :=
  match a with
  | A_MD5 => 0 | A_SHA1 => 1 | A_SHA224 => 2 | A_SHA256 => 3 | A_SHA384 => 4 | A_SHA512 => 5 | A_SHA512_224 => 6 | A_SHA512_256 => 7
  | A_SHA3_224 => 8 | A_SHA3_256 => 9 | A_SHA3_384 => 10 | A_SHA3_512 => 11
  | A_RawSHAKE128 => 12 | A_SHAKE128 => 13 | A_RawSHAKE256 => 14 | A_SHAKE256 => 15
  end.
(** __PGFE_BATCH_CASES_SP (generic-internal.h 65-82): which hash a case label selects; [None] is the
    default branch. [garbage]: see MMd5.v. *)
Definition sp_case (garbage : option N) (a : alg_choice) : option hash_impl :=
  match a with
  | A_MD5 => Some (md5_impl garbage)
  | A_SHA1 => Some (sha_impl alg_sha1)
  | A_SHA224 => Some (sha_impl alg_sha224)
  | A_SHA256 => Some (sha_impl alg_sha256)
  | A_SHA384 => Some (sha_impl alg_sha384)
  | A_SHA512 => Some (sha_impl alg_sha512)
  | A_SHA512_224 => Some (sha_impl alg_sha512_224)
  | A_SHA512_256 => Some (sha_impl alg_sha512_256)
  | A_SHA3_224 => Some impl_sha3_224
  | A_SHA3_256 => Some impl_sha3_256
  | A_SHA3_384 => Some impl_sha3_384
  | A_SHA3_512 => Some impl_sha3_512
  | A_RawSHAKE128 | A_SHAKE128 | A_RawSHAKE256 | A_SHAKE256 => None
  end.

(** generic-internal.c 15-19 [arrcpy]: the new contents of dest[dest_s] *)
Definition arrcpy (dest_s : nat) (src : list N) : list N :=
  let cpy_s := if Nat.ltb (length src) dest_s then length src else dest_s in
  firstn cpy_s src ++ repeat 0 (dest_s - cpy_s).

(** hmac.h 21-22 *)
Definition I_UNIT : N := 0x36.
Definition O_UNIT : N := 0x5c.
(** hmac.h 27-31 *)
Record hmac_ctx (I : hash_impl) := mkHmac { hash_ctx : ictx I; k_i_pad : list N; k_o_pad : list N }.
Arguments mkHmac {I}. Arguments hash_ctx {I}. Arguments k_i_pad {I}. Arguments k_o_pad {I}.

(** hmac.c 15-20. (The pads have exactly BLOCK_SIZE elements.) *)
Definition hmac_init (I : hash_impl) (c : hmac_ctx I) : outcome (hmac_ctx I) :=
  let h := iinit I (hash_ctx c) in
  let ip := repeat I_UNIT (iblock I) in
  let op := repeat O_UNIT (iblock I) in
  h <- iupdate I h ip ;; Ret (mkHmac h ip op).
(** hmac.c 21-32 *)
Definition hmac_set_key (I : hash_impl) (c : hmac_ctx I) (key : list N) : outcome (hmac_ctx I) :=
  let ip := map (fun b => N.lxor b I_UNIT) (arrcpy (iblock I) key) in
  let op := map (fun b => N.lxor b O_UNIT) (arrcpy (iblock I) key) in
  h <- iupdate I (iinit I (hash_ctx c)) ip ;; Ret (mkHmac h ip op).
(** hmac.c 33-37 *)
Definition hmac_update (I : hash_impl) (c : hmac_ctx I) (data : list N) : outcome (hmac_ctx I) :=
  h <- iupdate I (hash_ctx c) data ;; Ret (mkHmac h (k_i_pad c) (k_o_pad c)).
(** the uninitialised locals of the digest function: mid_hash[DIGEST_SIZE + 1] and the context inside
    encode_multiple *)
Record hmac_locals (I : hash_impl) := mkLocals { l_mid : list N; l_ctx : ictx I }.
Arguments mkLocals {I}. Arguments l_mid {I}. Arguments l_ctx {I}.
Definition locals_ok {I} (l : hmac_locals I) : Prop := length (l_mid l) = S (idsz I) /\ typed I (l_ctx l).
(** hmac.c 38-44. The size arguments are int constants that encode_multiple reads with
    va_arg(.., size_t); modelled as the values meant (they are passed in 64-bit registers or slots whose
    upper halves x86-64 compilers clear). *)
Definition hmac_digest (I : hash_impl) (l : hmac_locals I) (c : hmac_ctx I) (out : list N) : outcome (hmac_ctx I * list N) :=
  '(h, mid) <- idigest I (hash_ctx c) (l_mid l) ;;
  out <- encode_multiple I (l_ctx l) [Some (k_o_pad c); Some (firstn (idsz I) mid)] out ;;
  Ret (mkHmac h (k_i_pad c) (k_o_pad c), out).
(** hmac.c 45-54; [g]: the uninitialised local context *)
Definition hmac_one_shot (I : hash_impl) (g : hmac_ctx I) (l : hmac_locals I) (key data out : list N) : outcome (list N) :=
  c <- hmac_init I g ;;
  c <- hmac_set_key I c key ;;
  c <- hmac_update I c data ;;
  '(_, out) <- hmac_digest I l c out ;;
  Ret out.
(** the context and the locals belonging to a case of a switch ([None]: the default case) *)
Definition ectx (o : option hash_impl) : Type := match o with Some J => hmac_ctx J | None => unit end.
Definition eloc (o : option hash_impl) : Type := match o with Some J => hmac_locals J | None => unit end.
(** hmac.c 69-79 [pgfe_hmac]; [g], [l]: the uninitialised locals of the function selected *)
Definition hmac_case (o : option hash_impl) (key data out : list N) : ectx o -> eloc o -> outcome (list N) :=
  match o with
  | Some J => fun g l => hmac_one_shot J g l key data out
  | None => fun _ _ => Ret out
  end.
Definition pgfe_hmac (garbage : option N) (a : alg_choice) (g : ectx (sp_case garbage a)) (l : eloc (sp_case garbage a))
    (key data out : list N) : outcome (list N) :=
  hmac_case (sp_case garbage a) key data out g l.

(** ** A history of calls on one context *)
Inductive hmac_op (I : hash_impl) :=
| HInit | HKey (k : list N) | HUpdate (p : list N) | HDigest (l : hmac_locals I) (out : list N).
Arguments HInit {I}. Arguments HKey {I}. Arguments HUpdate {I}. Arguments HDigest {I}.
Definition hmac_step (I : hash_impl) (c : hmac_ctx I) (o : hmac_op I) : outcome (hmac_ctx I) :=
  match o with
  | HInit => hmac_init I c
  | HKey k => hmac_set_key I c k
  | HUpdate p => hmac_update I c p
  | HDigest l out => omap fst (hmac_digest I l c out)
  end.
Fixpoint hmac_ops (I : hash_impl) (c : hmac_ctx I) (os : list (hmac_op I)) : outcome (hmac_ctx I) :=
  match os with [] => Ret c | o :: os => c <- hmac_step I c o ;; hmac_ops I c os end.

(** ** HMACEncoder (hmac_encoder.hpp 25-71, hmac_encoder.cpp) *)
(** the uninitialised memory of a new object: cur_alg (algorithm_selectable.hpp 23), digsz and blocksz
    (abstract_hash_encoder.hpp 28), and the union as seen through the one member that will be used *)
Record raw_object (o : option hash_impl) := mkRaw { r_alg : N; r_digsz : N; r_blocksz : N; r_ctx : ectx o }.
Arguments mkRaw {o}. Arguments r_alg {o}. Arguments r_digsz {o}. Arguments r_blocksz {o}. Arguments r_ctx {o}.
(** A constructed object. cur_alg is the constructor's argument for the whole life of the object
    (select_algorithm is protected and called by the constructors only), so it is not a field here and only
    one union member is ever accessed: the one of case [o] of the switch; [None]: the default case. *)
Record encoder (o : option hash_impl) := mkEnc { e_digsz : N; e_blocksz : N; e_ctx : ectx o; e_output : option (list N) }.
Arguments mkEnc {o}. Arguments e_digsz {o}. Arguments e_blocksz {o}. Arguments e_ctx {o}. Arguments e_output {o}.
(** a switch over cur_alg acting on the union *)
Definition on_ctx (o : option hash_impl) (f : forall I, hmac_ctx I -> outcome (hmac_ctx I)) : ectx o -> outcome (ectx o) :=
  match o with Some J => f J | None => fun c => Ret c end.
(** algorithm_selectable.cpp 12-18 with hmac_encoder.cpp 59-62 [after_change_alg]
    ([before_change_alg] is the empty default) *)
Definition enc_select (o : option hash_impl) (a : alg_choice) (r : raw_object o) : outcome (encoder o) :=
  if alg_code a =? r_alg r then Ret (mkEnc (r_digsz r) (r_blocksz r) (r_ctx r) None)
  else
    c <- on_ctx o hmac_init (r_ctx r) ;;
    Ret (match o with
         | Some J => mkEnc (N.of_nat (idsz J)) (N.of_nat (iblock J)) c None
         | None => mkEnc (r_digsz r) (r_blocksz r) c None
         end).
(** hmac_encoder.cpp 64-66 *)
Definition enc_set_key (o : option hash_impl) (e : encoder o) (key : list N) : outcome (encoder o) :=
  c <- on_ctx o (fun I c => hmac_set_key I c key) (e_ctx e) ;;
  Ret (mkEnc (e_digsz e) (e_blocksz e) c (e_output e)).
(** hmac_encoder.cpp 39-57: the constructors *)
Definition enc_new (o : option hash_impl) (a : alg_choice) (r : raw_object o) (key : list N) : outcome (encoder o) :=
  e <- enc_select o a r ;; enc_set_key o e key.
(** hmac_encoder.cpp 81-83 *)
Definition enc_update (o : option hash_impl) (e : encoder o) (data : list N) : outcome (encoder o) :=
  c <- on_ctx o (fun I c => hmac_update I c data) (e_ctx e) ;;
  Ret (mkEnc (e_digsz e) (e_blocksz e) c (e_output e)).
(** the overloads for C strings and std::string (hmac_encoder.cpp 85-91, abstract_encoder.hpp 31-36) *)
Definition enc_update_cstr (o : option hash_impl) (e : encoder o) (mem : list N) : outcome (encoder o) :=
  if Nat.eqb (length (upto_nul mem)) (length mem) then UB OutOfBounds else enc_update o e (upto_nul mem).
(** abstract_encoder.hpp 27 (not overridden) *)
Definition enc_reset (o : option hash_impl) (e : encoder o) : encoder o := e.
(** hmac_encoder.cpp 97-100; the result is the pointed-to data, [None] for a null pointer. [l]: locals
    of the digest function; out[] starts uninitialised ([l_out]). *)
Definition enc_digest (o : option hash_impl) (l_out : list N) : eloc o -> encoder o -> outcome (encoder o * option (list N)) :=
  match o with
  | Some J => fun l e =>
      '(c, d) <- hmac_digest J l (e_ctx e) (firstn (idsz J) l_out) ;;
      Ret (mkEnc (e_digsz e) (e_blocksz e) (c : ectx (Some J)) (Some d), Some d)
  | None => fun _ e => Ret (e, e_output e)
  end.
(** calls on an object: update, reset *)
Inductive enc_op := EUpdate (p : list N) | ECstr (mem : list N) | EReset.
Fixpoint enc_ops (o : option hash_impl) (e : encoder o) (ops : list enc_op) : outcome (encoder o) :=
  match ops with
  | [] => Ret e
  | EUpdate p :: ops => e <- enc_update o e p ;; enc_ops o e ops
  | ECstr m :: ops => e <- enc_update_cstr o e m ;; enc_ops o e ops
  | EReset :: ops => enc_ops o (enc_reset o e) ops
  end.
