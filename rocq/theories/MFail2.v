(** Model of get_digest calls in which memory runs out (src/hashes/hash_encoder.cpp 124, src/hmac/hmac_encoder.cpp 23): the digest function
    has run, std::make_unique throws std::bad_alloc, the assignment and the return do not happen, the program catches it. Definitions only. *)
From Verif Require Import Base MFront MHmac MHmac2 MHashEnc MLife.
Local Open Scope N_scope.

(** ** HashEncoder, any number of objects *)
Inductive risky_op :=
| RCall (op : life_op)                                  (* a call that does not run out of memory in get_digest, or a read (MLife.v) *)
| RThrow (i : nat) (bitlength : N) (junk : N -> N).     (* x_i.get_digest(bitlength) that throws at hash_encoder.cpp 124 *)
(** hash_encoder.cpp 100-124: the context in the heap is changed by the digest function; neither the object nor what its member [out] owns is *)
Definition risky_step (garbage : option N) (s : life) (op : risky_op) : outcome life :=
  match op with
  | RCall op => life_step garbage s op
  | RThrow i bl junk =>
      h <- he_step garbage (l_he s) (OpDigest i bl junk) ;;
      Ret (mkLife (mkHS (s_heap h) (s_objs (l_he s)) (s_res (l_he s))) (l_sd s) (l_out s) (l_read s))
  end.
Fixpoint risky_run (garbage : option N) (s : life) (ops : list risky_op) : outcome life :=
  match ops with [] => Ret s | o :: ops => s <- risky_step garbage s o ;; risky_run garbage s ops end.

(** ** HMACEncoder, one object *)
Inductive tag := Tag (d : option (list N)) | NoTag.     (* what get_digest returned; it threw *)
(** hmac_encoder.cpp 19-24, 97-100 with [throws]: make_unique throws in the case of one of the twelve algorithms; for the others the switch does nothing *)
Definition enc_digest_with (o : option hash_impl) (throws : bool) (l_out : list N) : eloc o -> encoder o -> outcome (encoder o * tag) :=
  match o with
  | Some J => fun l e =>
      '(c, d) <- hmac_digest J l (e_ctx e) (firstn (idsz J) l_out) ;;
      if throws then Ret (mkEnc (e_digsz e) (e_blocksz e) (c : ectx (Some J)) (e_output e), NoTag)
      else Ret (mkEnc (e_digsz e) (e_blocksz e) (c : ectx (Some J)) (Some d), Tag (Some d))
  | None => fun _ e => Ret (e, Tag (e_output e))
  end.
(** the calls of MHmac2.v, each marked: does make_unique throw in it? *)
Fixpoint enc_calls_with (o : option hash_impl) (e : encoder o) (cs : list (enc_call o * bool)) : outcome (list tag) :=
  match cs with
  | [] => Ret []
  | (CUpdate p, _) :: cs => e <- enc_update o e p ;; enc_calls_with o e cs
  | (CCstr m, _) :: cs => e <- enc_update_cstr o e m ;; enc_calls_with o e cs
  | (CReset, _) :: cs => enc_calls_with o (enc_reset o e) cs
  | (CDigest l l_out, th) :: cs => '(e, d) <- enc_digest_with o th l_out l e ;; ds <- enc_calls_with o e cs ;; Ret (d :: ds)
  end.
