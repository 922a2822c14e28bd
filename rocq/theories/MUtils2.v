(** Model of pgfe_print_hash, src/core/utils.c. Definitions only. *)
From Verif Require Import Base MUtils.
Local Open Scope N_scope.

(** utils.c 68-72 [pgfe_print_hash]; [stdout] is what the stream has received so far;
    [printf "%02x"] is libc (the same two digits as in [to_hex_loop]). Write errors of the
    stream are not modelled. *)
Fixpoint print_hash (hash : list N) (stdout : list N) : list N :=
  match hash with
  | [] => stdout
  | b :: r => print_hash r (stdout ++ [hexdig (b / 16); hexdig (b mod 16)])
  end.
