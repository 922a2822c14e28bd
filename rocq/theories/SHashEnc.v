(** Specification side of C53-C55: the sixteen functions by name, and what a program's calls mean for each object. *)
From Verif Require SFips202 SMd5.
From Verif Require Import Base SHex SFips180 SShaLib MSha MFront MMd5 MKeccak MHmac SHash SKeccakFns SHashFns MHashEnc.
Local Open Scope N_scope.

(** ** The functions *)
(** the standards' function; [n]: number of output bytes asked of a XOF *)
Definition std_digest (a : alg_choice) (n : nat) (m : list N) : list N :=
  match a with
  | A_MD5 => SMd5.MD5 m
  | A_SHA1 => SHA1 m
  | A_SHA224 => SHA224 m
  | A_SHA256 => SHA256 m
  | A_SHA384 => SHA384 m
  | A_SHA512 => SHA512 m
  | A_SHA512_224 => SHA512_224 m
  | A_SHA512_256 => SHA512_256 m
  | A_SHA3_224 => SFips202.SHA3_224 m
  | A_SHA3_256 => SFips202.SHA3_256 m
  | A_SHA3_384 => SFips202.SHA3_384 m
  | A_SHA3_512 => SFips202.SHA3_512 m
  | A_RawSHAKE128 => SFips202.RawSHAKE128 m (8 * n)
  | A_SHAKE128 => SFips202.SHAKE128 m (8 * n)
  | A_RawSHAKE256 => SFips202.RawSHAKE256 m (8 * n)
  | A_SHAKE256 => SFips202.SHAKE256 m (8 * n)
  end.
(** what the library computes (SShaLib.v: the padding deviation of SHA-1 and SHA-2) *)
Definition lib_digest (a : alg_choice) (n : nat) (m : list N) : list N :=
  match a with
  | A_SHA1 => lib_SHA1 m
  | A_SHA224 => lib_sha2_hash sha2_32 IV_224 28 m
  | A_SHA256 => lib_sha2_hash sha2_32 IV_256 32 m
  | A_SHA384 => lib_sha2_hash sha2_64 IV_384 48 m
  | A_SHA512 => lib_sha2_hash sha2_64 IV_512 64 m
  | A_SHA512_224 => lib_sha2_hash sha2_64 IV_512_224 28 m
  | A_SHA512_256 => lib_sha2_hash sha2_64 IV_512_256 32 m
  | _ => std_digest a n m
  end.
(** the pieces: an int counts them (SHA-1, SHA-2), not empty (MD5), below 512 MiB (Keccak) *)
Definition piece_ok (a : alg_choice) (p : list N) : Prop :=
  match a with
  | A_MD5 => bytes_ok p /\ p <> []
  | A_SHA1 | A_SHA224 | A_SHA256 | A_SHA384 | A_SHA512 | A_SHA512_224 | A_SHA512_256 => int_piece p
  | _ => keccak_piece p
  end.
(** the messages: the standards' length limits *)
Definition message_ok (a : alg_choice) (m : list N) : Prop :=
  match a with
  | A_SHA1 | A_SHA224 | A_SHA256 => bits_below 64 m
  | A_SHA384 | A_SHA512 | A_SHA512_224 | A_SHA512_256 => bits_below 128 m
  | _ => True
  end.
(** the messages on which the library's padding is the standard's *)
Definition message_std (a : alg_choice) (m : list N) : Prop :=
  match a with
  | A_SHA1 | A_SHA224 | A_SHA256 => leaves_room 64 8 m
  | A_SHA384 | A_SHA512 | A_SHA512_224 | A_SHA512_256 => leaves_room 128 16 m
  | _ => True
  end.
Definition is_xof (a : alg_choice) : Prop := In a [A_SHAKE128; A_RawSHAKE128; A_SHAKE256; A_RawSHAKE256].

(** ** get_digest(bitlength) *)
(** the arguments for which it writes outside its local array *)
Definition overruns (a : alg_choice) (bitlength : N) : Prop :=
  (is_xof a /\ bitlength = 0) \/ (~ is_xof a /\ 0 < bitlength / 8 + bitlength mod 8 < size_digest a).
(** bytes of a XOF's output that are written: the bit length is cut to 32 bits *)
Definition xof_bytes (bitlength : N) : nat := N.to_nat (bitlength mod 2 ^ 32 / 8).
(** the result: the digest, then bytes never written *)
Definition digest_result (a : alg_choice) (bitlength : N) (junk : N -> N) (digest : list N) (result : list N) : Prop :=
  (~ is_xof a /\ result = digest) \/
  (is_xof a /\ exists rest, result = digest ++ rest /\ length result = N.to_nat (bitlength / 8 + bitlength mod 8) /\
     rest = map (fun i => junk (N.of_nat i)) (seq (xof_bytes bitlength) (length result - xof_bytes bitlength))).
(** arguments for which the result is just the digest *)
Definition clean_bits (a : alg_choice) (bitlength : N) : Prop :=
  (is_xof a /\ 0 < bitlength < 2 ^ 32 /\ bitlength mod 8 = 0) \/
  (~ is_xof a /\ (bitlength = 0 \/ size_digest a <= bitlength / 8 + bitlength mod 8)).

(** ** What a program's calls mean, object by object *)
Inductive spec_obj :=
| Absent                                            (* construction threw, or destroyed *)
| Feeding (a : alg_choice) (ps : list (list N))     (* what was fed since construction or the last reset *)
| Digested (a : alg_choice)                         (* get_digest was called since the last reset *)
| Broken (a : alg_choice).                          (* the last reset threw std::bad_alloc *)
Definition at_obj (gs : list spec_obj) (i : nat) (f : spec_obj -> spec_obj) : list spec_obj :=
  match nth_error gs i with Some g => firstn i gs ++ f g :: skipn (S i) gs | None => gs end.
Definition feeds (p : list N) (g : spec_obj) : spec_obj := match g with Feeding a ps => Feeding a (ps ++ [p]) | _ => g end.
Definition resets (ok : bool) (g : spec_obj) : spec_obj :=
  match g with
  | Feeding a _ | Digested a => if ok then Feeding a [] else Broken a
  | Broken a => if ok then Feeding a [] else Broken a
  | Absent => Absent
  end.
Definition digests (g : spec_obj) : spec_obj := match g with Feeding a _ => Digested a | _ => g end.
Definition granted (al : allocation) : bool := match al with Some _ => true | None => false end.
Definition spec_step (gs : list spec_obj) (o : he_op) : list spec_obj :=
  match o with
  | OpNew a _ al => gs ++ [if granted al then Feeding a [] else Absent]
  | OpReset i al => at_obj gs i (resets (granted al))
  | OpUpdate i p => at_obj gs i (feeds p)
  | OpCstr i mem => at_obj gs i (feeds (upto_nul mem))
  | OpDigest i _ _ => at_obj gs i digests
  | OpDestroy i => at_obj gs i (fun _ => Absent)
  end.
Definition spec_run (ops : list he_op) : list spec_obj := fold_left spec_step ops [].
(** the object a call is made on *)
Definition target (o : he_op) : option nat :=
  match o with OpNew _ _ _ => None | OpReset i _ | OpUpdate i _ | OpCstr i _ | OpDigest i _ _ | OpDestroy i => Some i end.
Definition on_broken (gs : list spec_obj) (o : he_op) : Prop :=
  exists i a, target o = Some i /\ nth_error gs i = Some (Broken a).
(** fresh memory holds arrays of the declared sizes, with any contents *)
Definition he_typed (a : alg_choice) : he_ctx a -> Prop :=
  match a with
  | A_MD5 => typed (he_impl None A_MD5 0)
  | A_SHA1 => typed (he_impl None A_SHA1 0)
  | A_SHA224 => typed (he_impl None A_SHA224 0)
  | A_SHA256 => typed (he_impl None A_SHA256 0)
  | A_SHA384 => typed (he_impl None A_SHA384 0)
  | A_SHA512 => typed (he_impl None A_SHA512 0)
  | A_SHA512_224 => typed (he_impl None A_SHA512_224 0)
  | A_SHA512_256 => typed (he_impl None A_SHA512_256 0)
  | _ => kshape
  end.
Definition memory_ok (al : allocation) : Prop := match al with Some f => forall a, he_typed a (f a) | None => True end.
Definition op_memory_ok (o : he_op) : Prop := match o with OpNew _ _ al | OpReset _ al => memory_ok al | _ => True end.

(** a history in which every call is one the library supports: pieces and messages within the limits, digest
    arguments that do not overrun, one digest per computation, no use of a broken object *)
Definition call_ok (gs : list spec_obj) (o : he_op) : Prop :=
  match target o with
  | None => True
  | Some i =>
      match nth_error gs i with
      | Some (Feeding a ps) =>
          match o with
          | OpUpdate _ p => piece_ok a p /\ message_ok a (concat (ps ++ [p]))
          | OpCstr _ mem => In 0 mem /\ piece_ok a (upto_nul mem) /\ message_ok a (concat (ps ++ [upto_nul mem]))
          | OpDigest _ bl _ => ~ overruns a bl
          | _ => True
          end
      | Some (Digested a) => match o with OpReset _ _ | OpDestroy _ => True | _ => False end
      | Some (Broken a) => False
      | _ => True
      end
  end.
Fixpoint history_ok (gs : list spec_obj) (ops : list he_op) : Prop :=
  match ops with [] => True | o :: ops => call_ok gs o /\ history_ok (spec_step gs o) ops end.
(** ** What a whole program is answered *)
(** the standards' digests, in the order of the calls of get_digest *)
Fixpoint expected (gs : list spec_obj) (ops : list he_op) : list (list N) :=
  match ops with
  | [] => []
  | o :: ops =>
      match o with
      | OpDigest i bl _ => match nth_error gs i with Some (Feeding a ps) => [std_digest a (N.to_nat (bl / 8)) (concat ps)] | _ => [] end
      | _ => []
      end ++ expected (spec_step gs o) ops
  end.
(** every digest asked for is one the standard's padding and whole initialised bytes answer *)
Fixpoint clean_history (gs : list spec_obj) (ops : list he_op) : Prop :=
  match ops with
  | [] => True
  | o :: ops =>
      match o with
      | OpDigest i bl _ => match nth_error gs i with Some (Feeding a ps) => message_std a (concat ps) /\ clean_bits a bl | _ => True end
      | _ => True
      end /\ clean_history (spec_step gs o) ops
  end.
