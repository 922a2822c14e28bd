(** Model of the variadic functions pgfe_*_encode_multiple (src/hashes/templates.h) at the level of the argument slots, and of the call of
    one of them in src/hmac/hmac.c. *)
From Verif Require Import Base MSha MFront MHmac.
Local Open Scope N_scope.

(** One variadic argument as the callee finds it, in a 64-bit slot: a pointer (null, or to the given bytes), a size_t, or an int, which fills
    the lower half only: [hi] is what the upper half happens to hold. *)
Inductive slot := SPtr (p : option (list N)) | SSize (v : N) | SInt (v hi : N).
(** va_arg(vl, pgfe_encode_t * ) *)
Definition va_ptr (s : slot) : outcome (option (list N)) :=
  match s with SPtr p => Ret p | _ => UB OutOfBounds end.
(** va_arg(vl, size_t). (For an int argument the C standard leaves this undefined; here the slot is read as it is.) *)
Definition va_size (s : slot) : outcome N :=
  match s with SSize v => Ret (u64 v) | SInt v hi => Ret (u32 v + 2 ^ 32 * u32 hi) | SPtr _ => UB OutOfBounds end.
(** update(ctx, input, size): the functions read [size] bytes one after the other. Simplified: a size that exceeds the bytes at the pointer
    is undefined behaviour at once (the model of update takes the bytes themselves). *)
Definition update_n (I : hash_impl) (c : ictx I) (mem : list N) (size : N) : outcome (ictx I) :=
  if size <=? N.of_nat (length mem) then iupdate I c (firstn (N.to_nat size) mem) else UB OutOfBounds.
(** templates.h 54-60, 108-114: for (i = 0; i < input_c; i++); reading an argument that was not passed is undefined *)
Fixpoint va_loop (I : hash_impl) (c : ictx I) (input_c : nat) (vl : list slot) : outcome (ictx I) :=
  match input_c with
  | O => Ret c
  | S n =>
      match vl with
      | s1 :: s2 :: vl =>
          input <- va_ptr s1 ;;
          input_s <- va_size s2 ;;
          match input with
          | None => va_loop I c n vl
          | Some mem => c <- update_n I c mem input_s ;; va_loop I c n vl
          end
      | _ => UB OutOfBounds
      end
  end.
(** templates.h 44-64, 98-118 [pgfe_*_encode_multiple] *)
Definition encode_multiple_va (I : hash_impl) (g : ictx I) (out : list N) (input_c : nat) (vl : list slot) : outcome (list N) :=
  c <- va_loop I (iinit I g) input_c vl ;;
  '(_, out) <- idigest I c out ;;
  Ret out.
(** hmac.c 38-44 [pgfe_hmac_*_digest]: the two sizes are int constants. [hi1], [hi2]: the upper halves of their slots *)
Definition hmac_digest_va (I : hash_impl) (hi1 hi2 : N) (l : hmac_locals I) (c : hmac_ctx I) (out : list N) : outcome (hmac_ctx I * list N) :=
  '(h, mid) <- idigest I (hash_ctx c) (l_mid l) ;;
  out <- encode_multiple_va I (l_ctx l) out 2
           [SPtr (Some (k_o_pad c)); SInt (N.of_nat (iblock I)) hi1; SPtr (Some mid); SInt (N.of_nat (idsz I)) hi2] ;;
  Ret (mkHmac h (k_i_pad c) (k_o_pad c), out).
