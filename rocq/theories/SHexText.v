(** Specification for C64: what a hex text with separators means. *)
From Verif Require Import Base SHex.
Local Open Scope N_scope.

(** 1 if the text ends in h or H *)
Definition h_suffix (s : list N) : nat :=
  match rev s with c :: _ => if (c =? 104) || (c =? 72) then 1 else 0 | [] => 0 end.
(** number of characters that are neither hex digits, nor the "0x"-style prefix, nor the
    "h" suffix: the separators *)
Definition separators (s : list N) : nat :=
  length (drop_prefix s) - length (cleaned s) - h_suffix (drop_prefix s).
