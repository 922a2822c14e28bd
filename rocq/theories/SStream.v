(** Specification side of C70: what a program that reads 1024 bytes at a time sees of a stream. *)
From Verif Require Import Base.

(** the bytes delivered up to and including the first result that is short *)
Fixpoint delivered (s : list (list N)) : list N :=
  match s with
  | [] => []
  | r :: s => if Nat.leb 1024 (length r) then r ++ delivered s else r
  end.
(** what is left after that *)
Fixpoint rest (s : list (list N)) : list (list N) :=
  match s with
  | [] => []
  | r :: s => if Nat.leb 1024 (length r) then rest s else s
  end.
(** a regular file of [content], without errors: full results until less than 1024 bytes are left *)
Inductive reads_of : list N -> list (list N) -> Prop :=
| reads_last content : (length content < 1024)%nat -> reads_of content [content]
| reads_full r content s : length r = 1024%nat -> reads_of content s -> reads_of (r ++ content) (r :: s).
(** a file of [content] on which reading fails after the first [n] bytes *)
Definition fails_after (n : nat) (content : list N) (s : list (list N)) : Prop := n <= length content /\ reads_of (firstn n content) s.
