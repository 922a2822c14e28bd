(** Model of programs on one TOTP object, with the results its generate calls give (src/otp/totp.cpp 17-80, src/otp/abstract_otp.cpp 10-34). Definitions only. *)
From Verif Require Import Base MFront MHmac MOtp MOtpObj.
Local Open Scope N_scope.

(** what a request gives the program: the value of generate or the text of generate_str, or NotInitializedException *)
Inductive totp_answer := AValue (r : gen_result N) | AText (r : gen_result (list N)).
(** the calls of MOtpObj.v ([totp_do]: totp.cpp 43-61, hotp.cpp, abstract_otp.cpp), one after the other, collecting what totp.cpp 72-80 [generate] and
    abstract_otp.cpp 27-34 with totp.cpp 77-80 [generate_str] return; an exception is caught and the program goes on *)
Fixpoint totp_session {garbage a} (ltr : bool) (t : totp_obj) (ks : list (totp_call garbage a)) : outcome (list totp_answer) :=
  match ks with
  | [] => Ret []
  | TGenerate e n1 n2 d :: ks => '(t, r) <- totp_generate e t n1 n2 d ;; rs <- totp_session ltr t ks ;; Ret (AValue r :: rs)
  | TGenerateStr e n1 n2 d :: ks => '(t, r) <- totp_generate_str e t n1 n2 d ;; rs <- totp_session ltr t ks ;; Ret (AText r :: rs)
  | k :: ks => t <- totp_do ltr t k ;; totp_session ltr t ks
  end.
