(** Specification side of C71: which bytes of a message and of a key are at stake. *)
From Verif Require Import Base.
Local Open Scope N_scope.

(** the bytes of a message after its last complete block of [bs] bytes *)
Definition tail_of (bs : nat) (m : list N) : list N := skipn (bs * (length m / bs)) m.
(** the first [bs] bytes of a key, a shorter key being continued with zeros *)
Definition first_block (bs : nat) (key : list N) : list N := firstn bs (key ++ repeat 0 bs).
