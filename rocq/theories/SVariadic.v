(** Specification side of C81: arguments of a variadic call. *)
From Verif Require Import Base MFront MVariadic.
Local Open Scope N_scope.

(** what the caller means to pass: pointers with sizes, each size within the memory at its pointer; a size is written as a size_t or as an int *)
Inductive how := AsSize | AsInt.
Record input := mkInput { in_ptr : option (list N); in_size : N; in_how : how }.
Definition in_bounds (i : input) : Prop :=
  match in_ptr i with Some mem => in_size i <= N.of_nat (length mem) | None => True end /\
  match in_how i with AsSize => in_size i < 2 ^ 64 | AsInt => in_size i < 2 ^ 31 end.
(** the data meant *)
Definition meant (i : input) : option (list N) := option_map (firstn (N.to_nat (in_size i))) (in_ptr i).
(** the slots the call fills; [hi] tells what the upper half of the n-th size holds if it is an int *)
Definition size_slot (i : input) (hi : N) : slot := match in_how i with AsSize => SSize (in_size i) | AsInt => SInt (in_size i) hi end.
Fixpoint slots (hi : nat -> N) (is : list input) : list slot :=
  match is with [] => [] | i :: is => SPtr (in_ptr i) :: size_slot i (hi 0%nat) :: slots (fun n => hi (S n)) is end.
