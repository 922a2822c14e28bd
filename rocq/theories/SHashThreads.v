(** Specification side of C87: sequences mixed byte by byte. *)
From Verif Require Import Base.

(** [mixed ls w]: w takes the bytes of the sequences ls in turn, each sequence in its own order, until all are used up *)
Inductive mixed : list (list N) -> list N -> Prop :=
| mixed_nil ls : Forall (fun l => l = []) ls -> mixed ls []
| mixed_byte before b l after w : mixed (before ++ l :: after) w -> mixed (before ++ (b :: l) :: after) (b :: w).
