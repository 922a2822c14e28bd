(** Model of the front ends generated by src/hashes/templates.h (FRONTEND_GEN2, FRONTEND_GEN3). *)
From Verif Require Import Base MSha.
Local Open Scope N_scope.

(** The context-based interface of one algorithm. For the XOFs (FRONTEND_GEN3) the requested output
    bit length is fixed when the record is formed. *)
Record hash_impl := mkImpl {
  ictx : Type;
  typed : ictx -> Prop;                        (* the arrays in the struct have their declared sizes *)
  iinit : ictx -> ictx;                        (* previous contents -> contents *)
  iupdate : ictx -> list N -> outcome ictx;
  idigest : ictx -> list N -> outcome (ictx * list N);
  iblock : nat;                                (* PGFE_*_BLOCK_SIZE *)
  idsz : nat }.                                (* PGFE_*_DIGEST_SIZE / output bytes *)

(** several calls of update in a row *)
Fixpoint updates (I : hash_impl) (c : ictx I) (ps : list (list N)) : outcome (ictx I) :=
  match ps with
  | [] => Ret c
  | p :: ps => c <- iupdate I c p ;; updates I c ps
  end.

(** templates.h 20-27, 72-81 [pgfe_*_encode]; [g]: contents of the uninitialised local context *)
Definition encode (I : hash_impl) (g : ictx I) (data out : list N) : outcome (list N) :=
  c <- iupdate I (iinit I g) data ;;
  '(_, out) <- idigest I c out ;;
  Ret out.

(** templates.h 37-40, 91-94: read 1024 bytes at a time until a short read. [content] is what is
    left of the file; fread returns min(1024, remaining) (no read errors). *)
Fixpoint file_loop (fuel : nat) (I : hash_impl) (c : ictx I) (content : list N) : outcome (ictx I) :=
  match fuel with
  | O => Hang
  | S fuel =>
      let buf := firstn 1024 content in
      c <- iupdate I c buf ;;
      if Nat.leb 1024 (length buf) then file_loop fuel I c (skipn 1024 content) else Ret c
  end.
(** templates.h 29-43, 83-97 [pgfe_*_encode_f] *)
Definition encode_f (I : hash_impl) (g : ictx I) (content out : list N) : outcome (list N) :=
  c <- file_loop (S (length content)) I (iinit I g) content ;;
  '(_, out) <- idigest I c out ;;
  Ret out.

(** templates.h 54-60, 108-114: the variadic inputs, [None] for a NULL pointer. The int counter is
    compared with a size_t; the argument count is assumed below 2^31. *)
Fixpoint multi_loop (I : hash_impl) (c : ictx I) (inputs : list (option (list N))) : outcome (ictx I) :=
  match inputs with
  | [] => Ret c
  | None :: r => multi_loop I c r
  | Some p :: r => c <- iupdate I c p ;; multi_loop I c r
  end.
(** templates.h 44-64, 98-118 [pgfe_*_encode_multiple] *)
Definition encode_multiple (I : hash_impl) (g : ictx I) (inputs : list (option (list N))) (out : list N) : outcome (list N) :=
  c <- multi_loop I (iinit I g) inputs ;;
  '(_, out) <- idigest I c out ;;
  Ret out.

(** templates.h 66-69, 119-123 [pgfe_*_encode_default]: [mem] is the memory the string starts in;
    strlen of a region without NUL runs out of bounds *)
Definition encode_default (I : hash_impl) (g : ictx I) (mem out : list N) : outcome (list N) :=
  if Nat.eqb (length (upto_nul mem)) (length mem) then UB OutOfBounds
  else encode I g (upto_nul mem) out.

(** the SHA-1/SHA-2 instances *)
Definition sha_impl (a : sha_alg) : hash_impl :=
  mkImpl sha_ctx (fun c => length (block c) = block_bytes a) (sha_init a) (sha_update a) (sha_digest a)
    (block_bytes a) (digest_bytes a).
