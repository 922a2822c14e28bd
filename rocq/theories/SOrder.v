(** Specification side of C69: the order of byte strings (memcmp with the shorter string first; strcmp for texts without NUL). *)
From Verif Require Import Base.

Fixpoint before (x y : list N) : Prop :=
  match x, y with
  | _, [] => False
  | [], _ :: _ => True
  | a :: x, b :: y => (a < b)%N \/ (a = b /\ before x y)
  end.
