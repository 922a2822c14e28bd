(** Specification side of C73: the calls without the base class. *)
From Verif Require Import Base MHmac MHashEnc MOtpObj MPoly.

(** the calls a program makes, those through a base class written as direct calls; get_digest through a base class left out *)
Fixpoint directly (ops : list poly_op) : list he_op :=
  match ops with
  | [] => []
  | Direct o :: ops => o :: directly ops
  | BaseReset i al :: ops => OpReset i al :: directly ops
  | BaseUpdate i d :: ops => OpUpdate i d :: directly ops
  | BaseCstr i m :: ops => OpCstr i m :: directly ops
  | BaseDigest _ :: ops => directly ops
  end.
(** the pointers that are not null *)
Fixpoint not_null (rs : list (option (list N))) : list (list N) :=
  match rs with [] => [] | Some d :: rs => d :: not_null rs | None :: rs => not_null rs end.

(** the settings of secret and counter among the calls on a TOTP object *)
Fixpoint sets_of {garbage a} (ks : list (totp_poly garbage a)) : list set_call :=
  match ks with [] => [] | TDirect (TSet k) :: ks => k :: sets_of ks | _ :: ks => sets_of ks end.
(** generate and generate_str are only called through a base class *)
Definition base_only {garbage a} (k : totp_poly garbage a) : Prop :=
  match k with TDirect (TGenerate _ _ _ _) | TDirect (TGenerateStr _ _ _ _) => False | _ => True end.
Definition base_generate {garbage a} (k : totp_poly garbage a) : Prop :=
  match k with TDirect _ => False | _ => True end.
