(** What a program on a TOTP object must get, in terms of its calls alone. *)
From Verif Require Import Base SHmac SOtp MFront MHmac MOtp MOtpObj SOtpObj MTotpProgram.
Local Open Scope N_scope.

Section Calls.
Context {garbage : option N} {a : alg_choice}.
Notation call := (totp_call garbage a).
(** the setters of the base class among the calls *)
Definition sets (ks : list call) : list set_call := flat_map (fun k => match k with TSet k => [k] | _ => [] end) ks.
Definition asks (k : call) : bool := match k with TGenerate _ _ _ _ | TGenerateStr _ _ _ _ => true | _ => false end.
(** the interval and the initial time after some calls: the ones set last, or those of the new object *)
Definition sets_interval (k : call) : Prop := match k with TSetInterval _ => True | _ => False end.
Definition sets_initial (k : call) : Prop := match k with TSetInitialTime _ => True | _ => False end.
Definition interval_after (ks : list call) (iv0 iv : N) : Prop :=
  (exists before after, ks = before ++ TSetInterval iv :: after /\ Forall (fun k => ~ sets_interval k) after) \/ (iv = iv0 /\ Forall (fun k => ~ sets_interval k) ks).
Definition initial_after (ks : list call) (t0 : Z) : Prop :=
  (exists before after, ks = before ++ TSetInitialTime t0 :: after /\ Forall (fun k => ~ sets_initial k) after) \/ (t0 = 0%Z /\ Forall (fun k => ~ sets_initial k) ks).
(** the readings of the clock *)
Definition readings (ks : list call) : list Z := flat_map (fun k => match k with TGenerate _ n1 n2 _ | TGenerateStr _ n1 n2 _ => [n1; n2] | _ => [] end) ks.
(** no value without a secret; with one the RFC 6238 value, or its decimal text of [d] digits, of the step at a clock reading made in this very call.
    HMAC looks at the first [B] bytes of the secret (C39_long_secret_cut). *)
Definition answered (H : list N -> list N) (B : nat) (t0 : Z) (iv : N) (so : option (list N)) (k : call) (r : totp_answer) : Prop :=
  match k, so with
  | TGenerate _ _ _ _, None => r = AValue NotInitialized
  | TGenerateStr _ _ _ _, None => r = AText NotInitialized
  | TGenerate _ n1 n2 d, Some s => exists now, (now = n1 \/ now = n2) /\ r = AValue (Otp (HOTP H B (firstn B s) (Z.to_N (time_step now t0 iv)) d))
  | TGenerateStr _ n1 n2 d, Some s => exists now text, (now = n1 \/ now = n2) /\ r = AText (Otp text) /\ decimal (N.to_nat d) (HOTP H B (firstn B s) (Z.to_N (time_step now t0 iv)) d) text
  | _, _ => False
  end.
End Calls.
