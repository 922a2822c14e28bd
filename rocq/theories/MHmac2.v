(** Model of HMACEncoder objects on which the digest is taken more than once, and of the
    constructors that take a string key. Definitions only. *)
From Verif Require Import Base MFront MHmac.
Local Open Scope N_scope.

(** hmac_encoder.cpp 44-47 and 68-70: the key is a C string; [mem] is the array at the pointer *)
Definition enc_new_cstr (o : option hash_impl) (a : alg_choice) (r : raw_object o) (mem : list N) : outcome (encoder o) :=
  if Nat.eqb (length (upto_nul mem)) (length mem) then UB OutOfBounds else enc_new o a r (upto_nul mem).
(** hmac_encoder.cpp 49-52 and 72-74: the key is a std::string, with its own length *)
Definition enc_new_string (o : option hash_impl) (a : alg_choice) (r : raw_object o) (s : list N) : outcome (encoder o) :=
  enc_new o a r s.

(** the public calls on an object (hmac_encoder.hpp 49-62: set_key is private). [l] and [l_out] of a
    digest call are its uninitialised locals. *)
Inductive enc_call (o : option hash_impl) :=
| CUpdate (p : list N) | CCstr (mem : list N) | CReset | CDigest (l : eloc o) (l_out : list N).
Arguments CUpdate {o}. Arguments CCstr {o}. Arguments CReset {o}. Arguments CDigest {o}.
(** the calls in order; the results of the get_digest calls ([None]: null pointer) *)
Fixpoint enc_calls (o : option hash_impl) (e : encoder o) (cs : list (enc_call o)) : outcome (list (option (list N))) :=
  match cs with
  | [] => Ret []
  | CUpdate p :: cs => e <- enc_update o e p ;; enc_calls o e cs
  | CCstr m :: cs => e <- enc_update_cstr o e m ;; enc_calls o e cs
  | CReset :: cs => enc_calls o (enc_reset o e) cs
  | CDigest l l_out :: cs => '(e, d) <- enc_digest o l_out l e ;; ds <- enc_calls o e cs ;; Ret (d :: ds)
  end.
