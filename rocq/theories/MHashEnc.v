(** Model of src/hashes/hash_encoder.cpp, include/libpgfe/hashes/hash_encoder.hpp, include/libpgfe/abstract_encoder.hpp
    and include/libpgfe/hashes/abstract_hash_encoder.hpp: class HashEncoder, with the heap its contexts live in. Definitions only. *)
From Verif Require Import Base MSha MFront MMd5 MKeccak MHmac.
Local Open Scope N_scope.

(** ** The switches over cur_alg: __PGFE_BATCH_CASES, _SP and _SHAKE_CASES (generic-internal.h 44-105) *)
(** the struct a case label stands for *)
Definition he_ctx (a : alg_choice) : Type :=
  match a with
  | A_MD5 => md5_ctx
  | A_SHA1 | A_SHA224 | A_SHA256 | A_SHA384 | A_SHA512 | A_SHA512_224 | A_SHA512_256 => sha_ctx
  | A_SHA3_224 | A_SHA3_256 | A_SHA3_384 | A_SHA3_512 | A_RawSHAKE128 | A_SHAKE128 | A_RawSHAKE256 | A_SHAKE256 => kctx
  end.
(** the functions a case label stands for; [bits] is the bit length passed to a XOF's digest.
    [garbage]: see MMd5.v. *)
Definition he_impl (garbage : option N) (a : alg_choice) (bits : N) : hash_impl :=
  match a with
  | A_MD5 => md5_impl garbage
  | A_SHA1 => sha_impl alg_sha1
  | A_SHA224 => sha_impl alg_sha224
  | A_SHA256 => sha_impl alg_sha256
  | A_SHA384 => sha_impl alg_sha384
  | A_SHA512 => sha_impl alg_sha512
  | A_SHA512_224 => sha_impl alg_sha512_224
  | A_SHA512_256 => sha_impl alg_sha512_256
  | A_SHA3_224 => impl_sha3_224
  | A_SHA3_256 => impl_sha3_256
  | A_SHA3_384 => impl_sha3_384
  | A_SHA3_512 => impl_sha3_512
  | A_RawSHAKE128 => impl_rawshake128 bits
  | A_SHAKE128 => impl_shake128 bits
  | A_RawSHAKE256 => impl_rawshake256 bits
  | A_SHAKE256 => impl_shake256 bits
  end.
(** hash_encoder.cpp 28-31: pgfe_<name>_init *)
Definition he_init (a : alg_choice) : he_ctx a -> he_ctx a :=
  match a with
  | A_MD5 => iinit (he_impl None A_MD5 0)
  | A_SHA1 => iinit (he_impl None A_SHA1 0)
  | A_SHA224 => iinit (he_impl None A_SHA224 0)
  | A_SHA256 => iinit (he_impl None A_SHA256 0)
  | A_SHA384 => iinit (he_impl None A_SHA384 0)
  | A_SHA512 => iinit (he_impl None A_SHA512 0)
  | A_SHA512_224 => iinit (he_impl None A_SHA512_224 0)
  | A_SHA512_256 => iinit (he_impl None A_SHA512_256 0)
  | A_SHA3_224 => iinit (he_impl None A_SHA3_224 0)
  | A_SHA3_256 => iinit (he_impl None A_SHA3_256 0)
  | A_SHA3_384 => iinit (he_impl None A_SHA3_384 0)
  | A_SHA3_512 => iinit (he_impl None A_SHA3_512 0)
  | A_RawSHAKE128 => iinit (he_impl None A_RawSHAKE128 0)
  | A_SHAKE128 => iinit (he_impl None A_SHAKE128 0)
  | A_RawSHAKE256 => iinit (he_impl None A_RawSHAKE256 0)
  | A_SHAKE256 => iinit (he_impl None A_SHAKE256 0)
  end.
(** hash_encoder.cpp 33-36: pgfe_<name>_update *)
Definition he_update (garbage : option N) (a : alg_choice) : he_ctx a -> list N -> outcome (he_ctx a) :=
  match a with
  | A_MD5 => iupdate (he_impl garbage A_MD5 0)
  | A_SHA1 => iupdate (he_impl garbage A_SHA1 0)
  | A_SHA224 => iupdate (he_impl garbage A_SHA224 0)
  | A_SHA256 => iupdate (he_impl garbage A_SHA256 0)
  | A_SHA384 => iupdate (he_impl garbage A_SHA384 0)
  | A_SHA512 => iupdate (he_impl garbage A_SHA512 0)
  | A_SHA512_224 => iupdate (he_impl garbage A_SHA512_224 0)
  | A_SHA512_256 => iupdate (he_impl garbage A_SHA512_256 0)
  | A_SHA3_224 => iupdate (he_impl garbage A_SHA3_224 0)
  | A_SHA3_256 => iupdate (he_impl garbage A_SHA3_256 0)
  | A_SHA3_384 => iupdate (he_impl garbage A_SHA3_384 0)
  | A_SHA3_512 => iupdate (he_impl garbage A_SHA3_512 0)
  | A_RawSHAKE128 => iupdate (he_impl garbage A_RawSHAKE128 0)
  | A_SHAKE128 => iupdate (he_impl garbage A_SHAKE128 0)
  | A_RawSHAKE256 => iupdate (he_impl garbage A_RawSHAKE256 0)
  | A_SHAKE256 => iupdate (he_impl garbage A_SHAKE256 0)
  end.
(** hash_encoder.cpp 38-46: pgfe_<name>_digest, with the bit length for the XOFs *)
Definition he_digest (garbage : option N) (a : alg_choice) (bits : N) : he_ctx a -> list N -> outcome (he_ctx a * list N) :=
  match a with
  | A_MD5 => idigest (he_impl garbage A_MD5 bits)
  | A_SHA1 => idigest (he_impl garbage A_SHA1 bits)
  | A_SHA224 => idigest (he_impl garbage A_SHA224 bits)
  | A_SHA256 => idigest (he_impl garbage A_SHA256 bits)
  | A_SHA384 => idigest (he_impl garbage A_SHA384 bits)
  | A_SHA512 => idigest (he_impl garbage A_SHA512 bits)
  | A_SHA512_224 => idigest (he_impl garbage A_SHA512_224 bits)
  | A_SHA512_256 => idigest (he_impl garbage A_SHA512_256 bits)
  | A_SHA3_224 => idigest (he_impl garbage A_SHA3_224 bits)
  | A_SHA3_256 => idigest (he_impl garbage A_SHA3_256 bits)
  | A_SHA3_384 => idigest (he_impl garbage A_SHA3_384 bits)
  | A_SHA3_512 => idigest (he_impl garbage A_SHA3_512 bits)
  | A_RawSHAKE128 => idigest (he_impl garbage A_RawSHAKE128 bits)
  | A_SHAKE128 => idigest (he_impl garbage A_SHAKE128 bits)
  | A_RawSHAKE256 => idigest (he_impl garbage A_RawSHAKE256 bits)
  | A_SHAKE256 => idigest (he_impl garbage A_SHAKE256 bits)
  end.

(** PGFE_*_DIGEST_SIZE: md5.h 19, sha1.h 19, sha2.h 20-26, sha3.h 39-46, selected by __PGFE_INIT_SIZE_CASE
    (generic-internal.h 107-111) *)
Definition size_digest (a : alg_choice) : N :=
  match a with
  | A_MD5 => 16 | A_SHA1 => 20 | A_SHA224 => 28 | A_SHA256 => 32 | A_SHA384 => 48 | A_SHA512 => 64
  | A_SHA512_224 => 28 | A_SHA512_256 => 32
  | A_SHA3_224 => 28 | A_SHA3_256 => 32 | A_SHA3_384 => 48 | A_SHA3_512 => 64
  | A_RawSHAKE128 => 32 | A_SHAKE128 => 32 | A_RawSHAKE256 => 64 | A_SHAKE256 => 64
  end.
(** PGFE_*_BLOCK_SIZE: md5.h 20, sha1.h 20, sha2.h 28-33, sha3.h 48-55 *)
Definition size_block (a : alg_choice) : N :=
  match a with
  | A_MD5 => 64 | A_SHA1 => 64 | A_SHA224 => 64 | A_SHA256 => 64 | A_SHA384 => 128 | A_SHA512 => 128
  | A_SHA512_224 => 128 | A_SHA512_256 => 128
  | A_SHA3_224 => 144 | A_SHA3_256 => 136 | A_SHA3_384 => 104 | A_SHA3_512 => 72
  | A_RawSHAKE128 => 168 | A_SHAKE128 => 168 | A_RawSHAKE256 => 136 | A_SHAKE256 => 136
  end.

(** ** The heap: every block ever allocated by [new], by address *)
Inductive cell := Freed | Live (a : alg_choice) (c : he_ctx a).
Definition heap := list cell.
Definition alg_eq_dec (a b : alg_choice) : {a = b} + {a <> b}.
Proof. decide equality. Defined.
(** reading a context through a pointer cast to the struct of case [a]: a dead block or one of another type is misuse *)
Definition load (h : heap) (p : nat) (a : alg_choice) : outcome (he_ctx a) :=
  match nth_error h p with
  | Some (Live b c) => match alg_eq_dec b a with left e => Ret (eq_rect b he_ctx c a e) | right _ => UB DoubleFree end
  | _ => UB DoubleFree
  end.
Definition store (h : heap) (p : nat) (x : cell) : heap := firstn p h ++ x :: skipn (S p) h.
(** delete (T * )p *)
Definition delete (h : heap) (p : nat) (a : alg_choice) : outcome heap := _ <- load h p a ;; Ret (store h p Freed).

(** ** The objects (hash_encoder.hpp 27-36, abstract_hash_encoder.hpp 28, algorithm_selectable.hpp 22) *)
Record henc := mkH { h_alg : alg_choice; h_ctx : option nat; h_digsz : N; h_blocksz : N; h_out : option (list N) }.

(** hash_encoder.cpp 50-54 *)
Definition destroy_context (h : heap) (e : henc) : outcome heap :=
  match h_ctx e with None => Ret h | Some p => delete h p (h_alg e) end.
(** What [new] does: [None] throws std::bad_alloc, [Some f] gives a block; [f] is the uninitialised contents, for
    whichever struct is asked for. *)
Definition allocation := option (forall a, he_ctx a).
(** hash_encoder.cpp 60-64. The second component: did it return normally (or throw)? *)
Definition load_algorithm (h : heap) (e : henc) (al : allocation) : heap * henc * bool :=
  match al with
  | None => (h, e, false)
  | Some f => (h ++ [Live (h_alg e) (he_init (h_alg e) (f (h_alg e)))],
               mkH (h_alg e) (Some (length h)) (size_digest (h_alg e)) (size_block (h_alg e)) (h_out e), true)
  end.
(** hash_encoder.cpp 66-69 *)
Definition he_reset (h : heap) (e : henc) (al : allocation) : outcome (heap * henc * bool) :=
  h <- destroy_context h e ;; Ret (load_algorithm h e al).
(** the uninitialised members of a new object: cur_alg, digsz, blocksz (ctx is null and out is empty) *)
Record raw_henc := mkRawH { rh_alg : N; rh_digsz : N; rh_blocksz : N }.
(** hash_encoder.cpp 75-78 with algorithm_selectable.cpp 12-18: when cur_alg happens to hold the code of the
    algorithm already, select_algorithm returns at once, otherwise it calls before_change_alg (hash_encoder.cpp 56-58) *)
Definition he_new (h : heap) (r : raw_henc) (a : alg_choice) (al : allocation) : outcome (heap * henc * bool) :=
  let e := mkH a None (rh_digsz r) (rh_blocksz r) None in
  h <- (if alg_code a =? rh_alg r then Ret h else destroy_context h e) ;;
  he_reset h e al.
(** hash_encoder.cpp 80-82 *)
Definition he_delete (h : heap) (e : henc) : outcome heap := destroy_context h e.
(** using the context: a null ctx would be a null dereference *)
Definition he_load (h : heap) (e : henc) : outcome (nat * he_ctx (h_alg e)) :=
  match h_ctx e with
  | None => UB NullDeref
  | Some p => c <- load h p (h_alg e) ;; Ret (p, c)
  end.
(** hash_encoder.cpp 84-86 *)
Definition he_feed (garbage : option N) (h : heap) (e : henc) (data : list N) : outcome heap :=
  '(p, c) <- he_load h e ;;
  c <- he_update garbage (h_alg e) c data ;;
  Ret (store h p (Live (h_alg e) c)).
(** hash_encoder.cpp 88-90, abstract_encoder.hpp 30-32: C strings; [mem] as in MFront.v *)
Definition he_feed_cstr (garbage : option N) (h : heap) (e : henc) (mem : list N) : outcome heap :=
  if Nat.eqb (length (upto_nul mem)) (length mem) then UB OutOfBounds else he_feed garbage h e (upto_nul mem).

(** hash_encoder.cpp 101-102 *)
Definition shake_flag (a : alg_choice) : bool :=
  match a with A_SHAKE128 | A_RawSHAKE128 | A_SHAKE256 | A_RawSHAKE256 => true | _ => false end.
(** hash_encoder.cpp 103 *)
Definition in_len (bitlength : N) : N := bitlength / 8 + bitlength mod 8.
(** hash_encoder.cpp 105-112: the bit length after the defaults are filled in *)
Definition fill_bits (a : alg_choice) (bitlength : N) : N :=
  if bitlength =? 0 then
    match a with A_SHAKE128 | A_RawSHAKE128 => 256 | A_SHAKE256 | A_RawSHAKE256 => 512 | _ => bitlength end
  else bitlength.
(** hash_encoder.cpp 114 (in_len is computed before the defaults are filled in, the condition after) *)
Definition out_len (a : alg_choice) (digsz bitlength : N) : N :=
  if shake_flag a then in_len bitlength
  else if (in_len bitlength <? digsz) && negb (fill_bits a bitlength =? 0) then in_len bitlength else digsz.
(** hash_encoder.cpp 100-126. [junk]: the uninitialised contents of the stack from seq on; seq is its first
    [length] bytes. The stack is taken to be large enough (a length whose array does not fit is not modelled),
    and make_unique to succeed. The result is the data pointed to. *)
Definition get_digest (garbage : option N) (junk : N -> N) (h : heap) (e : henc) (bitlength : N) : outcome (heap * henc * list N) :=
  '(p, c) <- he_load h e ;;
  let seq := map (fun i => junk (N.of_nat i)) (seq 0 (N.to_nat (out_len (h_alg e) (h_digsz e) bitlength))) in
  '(c, seq) <- he_digest garbage (h_alg e) (fill_bits (h_alg e) bitlength) c seq ;;
  Ret (store h p (Live (h_alg e) c), mkH (h_alg e) (h_ctx e) (h_digsz e) (h_blocksz e) (Some seq), seq).

(** ** Histories of a program that uses any number of HashEncoder objects *)
(** HashEncoder objects cannot be copied: the member [std::unique_ptr<SequentialData> out] (hash_encoder.hpp 30)
    deletes the copy constructor and the copy assignment, and the declared destructor suppresses the moves. *)
Inductive he_op :=
| OpNew (a : alg_choice) (r : raw_henc) (al : allocation)      (* HashEncoder x(a); the objects are numbered in this order *)
| OpReset (i : nat) (al : allocation)                          (* x_i.reset(), an exception is caught *)
| OpUpdate (i : nat) (data : list N)                           (* x_i.update(data, length), or a std::string *)
| OpCstr (i : nat) (mem : list N)                              (* x_i.update(char pointer) *)
| OpDigest (i : nat) (bitlength : N) (junk : N -> N)           (* x_i.get_digest(bitlength) *)
| OpDestroy (i : nat).                                         (* the end of x_i's life *)
(** heap; the objects ([None]: construction failed or already destroyed); the digests returned, latest first *)
Record he_state := mkHS { s_heap : heap; s_objs : list (option henc); s_res : list (list N) }.
Definition he_start : he_state := mkHS [] [] [].
Definition put (l : list (option henc)) (i : nat) (x : option henc) : list (option henc) := firstn i l ++ x :: skipn (S i) l.
Definition obj_of (s : he_state) (i : nat) : option henc := match nth_error (s_objs s) i with Some (Some e) => Some e | _ => None end.
(** One call. A call on an object that does not exist cannot be written: it is skipped. *)
Definition he_step (garbage : option N) (s : he_state) (o : he_op) : outcome he_state :=
  match o with
  | OpNew a r al =>
      '(h, e, ok) <- he_new (s_heap s) r a al ;;
      Ret (mkHS h (s_objs s ++ [if ok : bool then Some e else None]) (s_res s))
  | OpReset i al =>
      match obj_of s i with
      | None => Ret s
      | Some e => '(h, e, _) <- he_reset (s_heap s) e al ;; Ret (mkHS h (put (s_objs s) i (Some e)) (s_res s))
      end
  | OpUpdate i data =>
      match obj_of s i with
      | None => Ret s
      | Some e => h <- he_feed garbage (s_heap s) e data ;; Ret (mkHS h (s_objs s) (s_res s))
      end
  | OpCstr i mem =>
      match obj_of s i with
      | None => Ret s
      | Some e => h <- he_feed_cstr garbage (s_heap s) e mem ;; Ret (mkHS h (s_objs s) (s_res s))
      end
  | OpDigest i bl junk =>
      match obj_of s i with
      | None => Ret s
      | Some e => '(h, e, d) <- get_digest garbage junk (s_heap s) e bl ;; Ret (mkHS h (put (s_objs s) i (Some e)) (d :: s_res s))
      end
  | OpDestroy i =>
      match obj_of s i with
      | None => Ret s
      | Some e => h <- he_delete (s_heap s) e ;; Ret (mkHS h (put (s_objs s) i None) (s_res s))
      end
  end.
Fixpoint he_run (garbage : option N) (s : he_state) (ops : list he_op) : outcome he_state :=
  match ops with [] => Ret s | o :: ops => s <- he_step garbage s o ;; he_run garbage s ops end.
