(** Specification side of C77. *)
From Verif Require Import Base SRfc4648 MCppBase SCppBase MOtpObj SOtpObj MFail.

(** the calls that returned normally *)
Fixpoint returned (ks : list (set_call * failure)) (oks : list bool) : list set_call :=
  match ks, oks with (k, _) :: ks, ok :: oks => if ok then k :: returned ks oks else returned ks oks | _, _ => [] end.
(** the calls given a Base32 text *)
Definition takes_base32 (k : set_call) : Prop :=
  match k with SetSecretCstr _ b | SetSecretStr _ b => b = true | SetSecretFromBase32Cstr _ | SetSecretFromBase32Str _ => True | _ => False end.
(** a call that threw because memory ran out while a Base32 text was being decoded *)
Definition threw_decoding (ks : list (set_call * failure)) (oks : list bool) : Prop :=
  exists i k al, nth_error ks i = Some (k, al) /\ nth_error oks i = Some false /\ (al = CacheFails \/ al = CopyFails).
