(** What "computes the hash function H over any sequence of updates" means, for the context
    interface init / update / digest of one algorithm. *)
From Verif Require Import Base MSha MFront.
Local Open Scope N_scope.

(** From any prior contents [g] of the context, init, then one update per piece, then digest: no
    undefined behaviour, the first [idsz] bytes of the output buffer become H(concatenation of the
    pieces), and the rest of the buffer is unchanged. [piece_ok] and [total_ok] say which pieces
    and which messages this covers. *)
Definition streams (I : hash_impl) (piece_ok total_ok : list N -> Prop) (H : list N -> list N) : Prop :=
  forall g ps out, typed I g -> Forall piece_ok ps -> total_ok (concat ps) -> (idsz I <= length out)%nat ->
  exists c c', updates I (iinit I g) ps = Ret c /\ idigest I c out = Ret (c', H (concat ps) ++ skipn (idsz I) out) /\
    typed I c' /\ length (H (concat ps)) = idsz I.

(** bytes, and an int can count them *)
Definition int_piece (p : list N) : Prop := bytes_ok p /\ N.of_nat (length p) < 2 ^ 31.
(** fewer than 2^b bits *)
Definition bits_below (b : N) (m : list N) : Prop := 8 * N.of_nat (length m) < 2 ^ b.
(** bytes, and few enough for one call of a SHA-3/SHAKE update whatever is queued *)
Definition keccak_piece (p : list N) : Prop := bytes_ok p /\ 8 * N.of_nat (length p) + 1600 <= 2 ^ 32.
