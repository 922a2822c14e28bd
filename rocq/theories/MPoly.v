(** Model of the encoder and OTP objects used through a pointer or reference to a base class
    (abstract_encoder.hpp, abstract_otp.hpp, hash_encoder.hpp, hmac_encoder.hpp, hotp.hpp, totp.hpp). Definitions only. *)
From Verif Require Import Base MFront MHmac MHmac2 MHashEnc MOtp MOtpObj.
Local Open Scope N_scope.

(** ** HashEncoder through AbstractEncoder or AbstractHashEncoder *)
(** Virtual functions of abstract_encoder.hpp 26-43. HashEncoder (hash_encoder.hpp 45-50) overrides reset() and the four update();
    its get_digest(uint64_t = 0) (52) takes an argument and so does not override get_digest(): a call through the base
    class runs AbstractEncoder::get_digest (abstract_encoder.hpp 41-43), which returns a null pointer. *)
Inductive poly_op :=
| Direct (o : he_op)
| BaseReset (i : nat) (al : allocation)
| BaseUpdate (i : nat) (data : list N)
| BaseCstr (i : nat) (mem : list N)
| BaseDigest (i : nat).
(** the objects, and what every get_digest call returned, latest first ([None]: a null pointer) *)
Record poly_state := mkPS { p_he : he_state; p_res : list (option (list N)) }.
Definition poly_start : poly_state := mkPS he_start [].
(** a call that runs a function of HashEncoder; [length (s_res s)] grows exactly when it was a get_digest *)
Definition poly_he (garbage : option N) (s : poly_state) (o : he_op) : outcome poly_state :=
  h <- he_step garbage (p_he s) o ;;
  Ret (mkPS h (match o with
               | OpDigest i _ _ => match obj_of (p_he s) i, s_res h with Some _, d :: _ => Some d :: p_res s | _, _ => p_res s end
               | _ => p_res s
               end)).
Definition poly_step (garbage : option N) (s : poly_state) (o : poly_op) : outcome poly_state :=
  match o with
  | Direct o => poly_he garbage s o
  | BaseReset i al => poly_he garbage s (OpReset i al)
  | BaseUpdate i data => poly_he garbage s (OpUpdate i data)
  | BaseCstr i mem => poly_he garbage s (OpCstr i mem)
  | BaseDigest i => match obj_of (p_he s) i with Some _ => Ret (mkPS (p_he s) (None :: p_res s)) | None => Ret s end
  end.
Fixpoint poly_run (garbage : option N) (s : poly_state) (ops : list poly_op) : outcome poly_state :=
  match ops with [] => Ret s | o :: ops => s <- poly_step garbage s o ;; poly_run garbage s ops end.

(** ** TOTP through HOTP or AbstractOTP *)
(** generate and generate_str of TOTP (totp.hpp 47-49) are not const, those of AbstractOTP and HOTP (abstract_otp.hpp 33-37,
    hotp.hpp 51-52) are: they are not overridden, so a call through a base class runs HOTP::generate, on the counter stored in
    the object. set_secret and set_counter are HOTP's in either case; set_interval and set_initial_time are TOTP's own. *)
Inductive totp_poly (garbage : option N) (a : alg_choice) :=
| TDirect (k : totp_call garbage a)
| TBaseGenerate (e : locals garbage a) (digit_count : N)
| TBaseGenerateStr (e : locals garbage a) (digit_count : N).
Arguments TDirect {garbage a}. Arguments TBaseGenerate {garbage a}. Arguments TBaseGenerateStr {garbage a}.
(** hotp.cpp 73-83: const, the object stays as it is *)
Definition totp_poly_do {garbage a} (ltr : bool) (t : totp_obj) (k : totp_poly garbage a) : outcome totp_obj :=
  match k with
  | TDirect k => totp_do ltr t k
  | TBaseGenerate e d => _ <- hotp_generate e (hotp_part t) d ;; Ret t
  | TBaseGenerateStr e d => _ <- hotp_generate_str e (hotp_part t) d ;; Ret t
  end.
Fixpoint totp_poly_run {garbage a} (ltr : bool) (t : totp_obj) (ks : list (totp_poly garbage a)) : outcome totp_obj :=
  match ks with [] => Ret t | k :: ks => t <- totp_poly_do ltr t k ;; totp_poly_run ltr t ks end.
