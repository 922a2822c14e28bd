(** Model of SHA-1/SHA-2 contexts fed by several threads at once (templates.h 135-155, sha2-backend.c 192-215; HashEncoder::update, hash_encoder.cpp,
    and HMACEncoder::update take no lock either). Simplified, in favour of the program: every statement of the loop takes effect
    at once and in one piece, in the order of the schedule (to the C++ standard a schedule with conflicting accesses is a data
    race and undefined altogether; on a machine the loads and stores of one statement interleave as well). Definitions only. *)
From Verif Require Import Base MSha.
Local Open Scope N_scope.

(** where a thread is inside update: the bytes not yet read, the int loop counter, the local corrupt_flag *)
Inductive uplace :=
| UIdle
| UByte (rest : list N) (i : N) (corrupt : bool)     (* loop condition; ctx->block[ctx->index++] = *inp *)
| ULen (rest : list N) (i : N)                       (* tmp_low = ...; ctx->len_low += 8; corrupt_flag = ... *)
| UFull (rest : list N) (i : N) (corrupt : bool).    (* if (... ctx->index == BLOCK_SIZE) process_block; inp++; i++ *)
(** a thread: the object it feeds, the calls it still has to make, the place *)
Record uthread := mkUT { ut_obj : nat; ut_todo : list (list N); ut_at : uplace }.

(** templates.h 146-148, sha2-backend.c 201-207 *)
Definition add_length (a : sha_alg) (c : sha_ctx) : sha_ctx * bool :=
  let low := trunc (word_bits a) (len_low c + 8) in
  let wrapped := low <? len_low c in
  let high := if wrapped then trunc (word_bits a) (len_high c + 1) else len_high c in
  (mkSha (state c) low high (index c) (block c), wrapped && (high =? 0)).
(** templates.h 142-154, sha2-backend.c 198-214: one statement of one thread, on the context it feeds *)
Definition ut_step (a : sha_alg) (c : sha_ctx) (t : uthread) : outcome (sha_ctx * uthread) :=
  let go c p := Ret (c, mkUT (ut_obj t) (ut_todo t) p) in
  match ut_at t with
  | UIdle => match ut_todo t with [] => Ret (c, t) | p :: r => Ret (c, mkUT (ut_obj t) r (UByte p 0 false)) end
  | UByte [] _ _ => go c UIdle
  | UByte _ _ true => go c UIdle
  | UByte (b :: r) i false => blk <- wr (block c) (index c) b ;; go (mkSha (state c) (len_low c) (len_high c) (S (index c)) blk) (ULen r i)
  | ULen r i => let '(c, corrupt) := add_length a c in go c (UFull r i corrupt)
  | UFull r i corrupt =>
      let c := if negb corrupt && Nat.eqb (index c) (block_bytes a) then process_block a c else c in
      if i =? INT_MAX then UB SignedOverflow else go c (UByte r (i + 1) corrupt)
  end.
(** the objects, and the threads *)
Definition ut_state := (list sha_ctx * list uthread)%type.
Definition put {A} (i : nat) (x : A) (l : list A) : list A := firstn i l ++ x :: skipn (S i) l.
Definition ut_next (a : sha_alg) (st : ut_state) (who : nat) : outcome ut_state :=
  let '(cs, ts) := st in
  match nth_error ts who with
  | None => Ret st
  | Some t => match nth_error cs (ut_obj t) with
              | None => Ret st
              | Some c => '(c, t') <- ut_step a c t ;; Ret (put (ut_obj t) c cs, put who t' ts)
              end
  end.
Fixpoint ut_run (a : sha_alg) (st : ut_state) (sched : list nat) : outcome ut_state :=
  match sched with [] => Ret st | k :: r => st <- ut_next a st k ;; ut_run a st r end.
(** threads before their first call: the object and the data of the calls *)
Definition ut_start (cs : list sha_ctx) (work : list (nat * list (list N))) : ut_state := (cs, map (fun w => mkUT (fst w) (snd w) UIdle) work).
Definition finished (t : uthread) : Prop := ut_at t = UIdle /\ ut_todo t = [].
