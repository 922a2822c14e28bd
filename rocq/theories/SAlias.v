(** Specification side of C83. *)
From Verif Require Import Base.

(** the array [mem] holds at index [i] the string [t] and its NUL *)
Definition string_at (mem : list N) (i : nat) (t : list N) : Prop := ~ In 0%N t /\ exists rest, skipn i mem = t ++ 0%N :: rest /\ i <= length mem.
(** ... the bytes [x] *)
Definition bytes_at (mem : list N) (i : nat) (x : list N) : Prop := exists rest, skipn i mem = x ++ rest /\ i <= length mem.
(** the result of a call with an output array of its own (its length and new contents), seen in [mem] where that array begins at index [i] *)
Definition in_mem (mem : list N) (i : nat) (r : nat * list N) : nat * list N := (fst r, firstn i mem ++ snd r).
(** the output array, from index [os] to the end of [mem], begins at or before the text, or after its NUL *)
Definition starts_clear (ts len os : nat) : Prop := os <= ts \/ ts + len < os.
