(** Specification side of C78. *)
From Verif Require Import Base MFront MHmac MHmac2 MHashEnc SHashEnc MLife SLife MFail2.

(** the calls on encoders a program makes, a get_digest call counting also when it throws *)
Fixpoint attempts (ops : list risky_op) : list he_op :=
  match ops with
  | [] => []
  | RCall (LCall o) :: ops => o :: attempts ops
  | RCall (LRead _) :: ops => attempts ops
  | RThrow i bl junk :: ops => OpDigest i bl junk :: attempts ops
  end.
(** the calls that end the life of what get_digest on object i returned (C75): a get_digest that throws is not one *)
Definition really_ends (i : nat) (op : risky_op) : Prop := match op with RCall op => ends i op | RThrow _ _ _ => False end.
(** a result seen by the program is the one of the same program without exceptions, or the call threw *)
Definition or_threw (t : tag) (d : option (list N)) : Prop := t = Tag d \/ t = NoTag.
