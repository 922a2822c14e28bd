(** What the HOTP and TOTP objects must do, in terms of the history of calls. *)
From Verif Require Import Base SRfc4648 PropBase MCppBase SCppBase MOtpObj.

(** the secret a call gives the object (a Base32 text is decoded as the C function pgfe_decode_base32 does) *)
Definition gives (k : set_call) (s : list N) : Prop :=
  match k with
  | SetSecret x | SetSecretStr x false | SetSecretSD x => s = x
  | SetSecretCstr m false => s = upto_nul m
  | SetSecretCstr m true | SetSecretFromBase32Cstr m => c_decodes B32 (upto_nul m) s
  | SetSecretStr x true | SetSecretFromBase32Str x => c_decodes B32 (upto_nul x) s
  | SetCounter _ => False
  end.
Definition counter_call (k : set_call) : Prop := match k with SetCounter _ => True | _ => False end.
(** the secret after a history: the one given last *)
Definition secret_after (ks : list set_call) (r : option (list N)) : Prop :=
  match r with
  | None => Forall counter_call ks
  | Some s => exists before k after, ks = before ++ k :: after /\ gives k s /\ Forall counter_call after
  end.
(** the counter after a history: the one set last, or what the memory of the new object contained *)
Definition counter_after (ks : list set_call) (co0 c : N) : Prop :=
  (exists before after, ks = before ++ SetCounter c :: after /\ Forall (fun k => ~ counter_call k) after) \/
  (c = co0 /\ Forall (fun k => ~ counter_call k) ks).
(** sound arguments: terminated strings, non-empty Base32 text (C12) *)
Definition set_ok (k : set_call) : Prop :=
  match k with
  | SetSecretCstr m false => In 0%N m
  | SetSecretCstr m true | SetSecretFromBase32Cstr m => call_ok (DecodeCstr m)
  | SetSecretStr x true | SetSecretFromBase32Str x => call_ok (DecodeStr x)
  | _ => True
  end.
