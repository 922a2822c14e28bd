(** What libpgfe's SHA-1/SHA-2 padding feeds to the compression function (deviation from
    FIPS 180-4): when the message, the 0x80 byte and the length field do not fit in the last
    block, a second block is used whose leading bytes are not zeros but the leading bytes of the
    last partial block of the message. *)
From Verif Require Import Base SHex SFips180.
Local Open Scope N_scope.

(** the message bytes after the last full block *)
Definition last_part (bs : nat) (m : list N) : list N := skipn (bs * (length m / bs)) m.
(** room in the last block for 0x80 and the length field *)
Definition fits (bs lb : nat) (m : list N) : bool := Nat.leb (length m mod bs + 1 + lb) bs.
Definition lib_padded (bs lb : nat) (enc : N -> list N) (m : list N) : list N :=
  if fits bs lb m then padded bs lb enc m
  else m ++ [0x80] ++ repeat 0 (bs - length m mod bs - 1)
         ++ firstn (bs - lb) (last_part bs m) ++ enc (8 * N.of_nat (length m)).
Definition lib_iterate (bs lb : nat) (enc : N -> list N) (compress : list N -> list N -> list N)
           (iv m : list N) : list N :=
  fold_left compress (pieces bs (lib_padded bs lb enc m)) iv.
Definition lib_SHA1 (m : list N) : list N :=
  flat_map (be_bytes 4) (lib_iterate 64 8 (be_bytes 8) sha1_compress sha1_IV m).
Definition lib_sha2_hash (F : sha2) (iv : list N) (digest : nat) (m : list N) : list N :=
  firstn digest (flat_map (be_bytes (wbytes F))
    (lib_iterate (16 * wbytes F) (2 * wbytes F) (be_bytes (2 * wbytes F)) (sha2_compress F) iv m)).
(** the messages on which the two agree by construction: the last block has room, or the
    bytes reused by mistake are all zero *)
Definition unaffected (bs lb : nat) (m : list N) : Prop :=
  fits bs lb m = true \/ Forall (fun b => b = 0) (firstn (bs - lb) (last_part bs m)).
