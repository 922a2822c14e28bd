(** Specification side of C75. *)
From Verif Require Import Base MHashEnc MLife.

(** the calls that end the life of what the last get_digest on object i returned: the next get_digest on it and its destruction *)
Definition ends (i : nat) (op : life_op) : Prop :=
  match op with LCall (OpDigest j _ _) | LCall (OpDestroy j) => j = i | _ => False end.
Fixpoint calls_of (ops : list life_op) : list he_op :=
  match ops with [] => [] | LCall o :: ops => o :: calls_of ops | LRead _ :: ops => calls_of ops end.
