(** Model of HOTP's set_secret functions when memory runs out (src/otp/hotp.cpp, src/otp/abstract_otp.cpp,
    src/base_encoding/abstract_base_encoding.cpp). Definitions only. *)
From Verif Require Import Base MFront MBase MCppBase MOtp MOtpObj.
Local Open Scope N_scope.

(** Which allocation of one call fails, if it is made at all: the cache of the Base32 member (abstract_base_encoding.cpp 59, made only
    if the cache is too small), the decoded data (67), the return of it by value (69: elided by most compilers, otherwise a copy,
    sequential_data.cpp 21), the new secret (hotp.cpp 44: the object or its contents). A failure throws std::bad_alloc, which ends
    the call (so that one failure per call is general) and which the program catches. *)
Inductive failure := NoFailure | CacheFails | CopyFails | ReturnFails | SecretFails.
Definition fails (f g : failure) : bool :=
  match f, g with CacheFails, CacheFails | CopyFails, CopyFails | ReturnFails, ReturnFails | SecretFails, SecretFails => true | _, _ => false end.
(** Base32::decode on the member, nothing else running; [None]: it threw. The schedule names the step at which an allocation may fail. *)
Definition decode_with (al : failure) (o : object) (k : call) : outcome (object * option (list N)) :=
  let ok := mkChoice 0 true idle in
  s <- run (CBase32 false) (o, [mkThread [k] Outside []]) [ok; ok; mkChoice 0 (negb (fails al CacheFails)) idle; ok; ok; mkChoice 0 (negb (fails al CopyFails)) idle; ok] ;;
  match s with
  | (o, [mkThread [] Outside [Value v]]) => Ret (o, if fails al ReturnFails then None else Some v)
  | (o, [mkThread [] Outside [Threw]]) => Ret (o, None)
  | _ => Hang   (* the member's mutex is held *)
  end.
(** hotp.cpp 43-45: make_unique first, then the assignment. The second component: false if the call threw *)
Definition secret_with (al : failure) (h : hotp_obj) (seq : list N) : hotp_obj * bool :=
  if fails al SecretFails then (h, false) else (set_secret h seq, true).
(** abstract_otp.cpp 22-25, see MOtpObj.v *)
Definition secret_sd_with (ltr : bool) (al : failure) (h : hotp_obj) (sd : list N) : outcome (hotp_obj * bool) :=
  if ltr then Ret (secret_with al h sd) else UB Indeterminate.
(** hotp.cpp 85-93 *)
Definition secret_base32_with (ltr : bool) (al : failure) (h : hotp_obj) (k : call) : outcome (hotp_obj * bool) :=
  '(o, v) <- decode_with al (base32 h) k ;;
  let h := mkHotp (secret h) (co h) o in
  match v with None => Ret (h, false) | Some v => secret_sd_with ltr al h v end.
(** hotp.cpp 43-72, 85-93 *)
Definition do_set_with (ltr : bool) (al : failure) (h : hotp_obj) (k : set_call) : outcome (hotp_obj * bool) :=
  match k with
  | SetSecret s => Ret (secret_with al h s)
  | SetSecretCstr m is_base32 => if is_base32 then secret_base32_with ltr al h (DecodeCstr m) else s <- c_string m ;; Ret (secret_with al h s)
  | SetSecretStr s is_base32 => if is_base32 then secret_base32_with ltr al h (DecodeStr s) else Ret (secret_with al h s)
  | SetSecretSD s => secret_sd_with ltr al h s
  | SetSecretFromBase32Cstr m => secret_base32_with ltr al h (DecodeCstr m)
  | SetSecretFromBase32Str s => secret_base32_with ltr al h (DecodeStr s)
  | SetCounter c => Ret (mkHotp (secret h) c (base32 h), true)
  end.
(** a history of calls, each with its own failure; for each call, whether it returned normally *)
Fixpoint sets_with (ltr : bool) (h : hotp_obj) (ks : list (set_call * failure)) : outcome (hotp_obj * list bool) :=
  match ks with
  | [] => Ret (h, [])
  | (k, al) :: ks => '(h, ok) <- do_set_with ltr al h k ;; '(h, oks) <- sets_with ltr h ks ;; Ret (h, ok :: oks)
  end.
