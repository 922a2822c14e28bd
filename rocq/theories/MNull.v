(** Model of the hash functions called with null pointers (templates.h, md5.c, sha2-backend.c, keccak-backend.c). *)
From Verif Require Import Base MSha MFront MMd5 MKeccak.
Local Open Scope N_scope.

(** ** MD5, SHA-1, SHA-2: the functions return at once if a pointer is null *)
(** templates.h 126-127 [SHA_INIT]; md5.c 26; sha384.c 24; sha512.c 31: if (!ctx) return *)
Definition init_p (I : hash_impl) (ctx : option (ictx I)) : option (ictx I) :=
  match ctx with Some c => Some (iinit I c) | None => None end.
(** templates.h 136-137 [SHA_UPDATE]; md5.c 33; sha2-backend.c 193: if (!ctx || !input) return *)
Definition update_p (I : hash_impl) (ctx : option (ictx I)) (input : option (list N)) : outcome (option (ictx I)) :=
  match ctx, input with
  | Some c, Some i => omap Some (iupdate I c i)
  | _, _ => Ret ctx
  end.
(** templates.h 159-160 [SHA_DIGEST]; md5.c 67; sha2-backend.c 105, 252: if (!ctx || !output) return *)
Definition digest_p (I : hash_impl) (ctx : option (ictx I)) (output : option (list N)) : outcome (option (ictx I) * option (list N)) :=
  match ctx, output with
  | Some c, Some o => omap (fun '(c, o) => (Some c, Some o)) (idigest I c o)
  | _, _ => Ret (ctx, output)
  end.
(** calls on one context *)
Inductive call := Update (input : option (list N)) | Digest (output : option (list N)).
Definition call_p (I : hash_impl) (ctx : option (ictx I)) (k : call) : outcome (option (ictx I)) :=
  match k with
  | Update i => update_p I ctx i
  | Digest o => omap fst (digest_p I ctx o)
  end.
Fixpoint calls_p (I : hash_impl) (ctx : option (ictx I)) (ks : list call) : outcome (option (ictx I)) :=
  match ks with [] => Ret ctx | k :: ks => c <- call_p I ctx k ;; calls_p I c ks end.
(** templates.h 20-27 [pgfe_*_encode] with data or output null; [g]: the uninitialised local context *)
Definition encode_p (I : hash_impl) (g : ictx I) (data output : option (list N)) : outcome (option (list N)) :=
  c <- update_p I (init_p I (Some g)) data ;;
  omap snd (digest_p I c output).

(** ** SHA-3, SHAKE: no checks. A null pointer is a region without accessible bytes, so that every access through it is
    undefined. A null output is [idigest] with the empty buffer; for update the length argument is separate: *)
(** keccak-backend.c 164-209 called by sha3-256.c 25-27 and siblings, shake.c 48-50, 89-91 *)
Definition keccak_update_null (c : kctx) (len : N) : outcome kctx := keccak_absorb c [] (u64 (8 * len)).
(** updates with data *)
Fixpoint keccak_updates (c : kctx) (ps : list (list N)) : outcome kctx :=
  match ps with [] => Ret c | p :: ps => c <- keccak_update c p ;; keccak_updates c ps end.
