(** Model of src/core/utils.c, the parts of src/core/generic-internal.c it uses,
    and src/core/utils.cpp (from_hex_string). Definitions only. *)
From Verif Require Import Base.
Local Open Scope N_scope.

(** generic-internal.c 22-38 [ch2hex]; PGFE_HEX_UNKNOWN_CHAR = 0xF1 (generic-internal.h 19).
    '0'=48 '9'=57 'A'=65 'F'=70 'a'=97 'f'=102. The comparisons are the same for signed
    and unsigned char because all bounds are below 128: a negative char fails every
    [>=] test, and its unsigned code (>= 128) fails every [<=] test. *)
Definition HEX_UNKNOWN : N := 0xF1.
Definition ch2hex (ch : N) : N :=
  if (48 <=? ch) && (ch <=? 57) then ch - 48
  else if (65 <=? ch) && (ch <=? 70) then ch - 65 + 10
  else if (97 <=? ch) && (ch <=? 102) then ch - 97 + 10
  else HEX_UNKNOWN.

(** generic-internal.c 12-20 [arrinit]/[arrcpy]: copy the common prefix, zero the rest.
    Returns the new contents of a [dest_s]-byte destination. *)
Definition arrcpy (dest_s : nat) (src : list N) : list N :=
  let cpy := if Nat.ltb (length src) dest_s then length src else dest_s in
  firstn cpy src ++ repeat 0 (dest_s - cpy).

(** one hexadecimal digit as printed by printf %x (libc; utils.c 19) *)
Definition hexdig (d : N) : N := if d <? 10 then 48 + d else 97 + (d - 10).

(** utils.c 18-22: the loop of [pgfe_hash_to_hex_string]; [sprintf "%02x"] is libc. *)
Fixpoint to_hex_loop (hash : list N) (k : nat) (out : list N) : outcome (nat * list N) :=
  match hash with
  | [] => Ret (k, out)
  | b :: r =>
      out <- wr out k (hexdig (b / 16)) ;;
      out <- wr out (k + 1) (hexdig (b mod 16)) ;;
      to_hex_loop r (k + 2) out
  end.
(** utils.c 15-27 [pgfe_hash_to_hex_string]: returns (count, new contents of out). *)
Definition to_hex (hash : list N) (out : list N) : outcome (nat * list N) :=
  '(k, out) <- to_hex_loop hash 0 out ;;
  out <- wr out k 0 ;;
  Ret (k, out).

(** utils.c 46-63: main loop; [cs] are the characters from sp up to the NUL,
    [pos] the parity, [hexu] the accumulator, [k] = op - hash_out. *)
Fixpoint from_hex_loop (cs : list N) (pos : N) (hexu : N) (k : nat) (out : list N)
  : outcome (nat * list N) :=
  match cs with
  | [] => Ret (k, out)
  | c :: r =>
      let tmp := ch2hex c in
      if tmp =? HEX_UNKNOWN then from_hex_loop r pos hexu k out
      else
        let hexu := N.lor hexu tmp in
        if pos =? 0 then from_hex_loop r (N.lxor pos 1) (u8 (N.shiftl hexu 4)) k out
        else
          out <- wr out k hexu ;;
          from_hex_loop r (N.lxor pos 1) 0 (k + 1) out
  end.

Definition is_x (c : N) : bool := (c =? 120) || (c =? 88).
Definition is_h (c : N) : bool := (c =? 104) || (c =? 72).

(** utils.c 29-66 [pgfe_hex_string_to_hash]. [s] is the string, [tail] whatever
    addressable bytes follow its NUL in the same array; the array is s ++ 0 :: tail.
    The index [sp + len - 1] is computed in Z because len may be 0 (size_t wrap gives
    index -1 relative to sp). *)
Definition from_hex (s tail : list N) (out : list N) : outcome (nat * list N) :=
  let mem := s ++ 0 :: tail in
  tpc <- rd mem 1 ;;
  let len := length s in
  let pre := Nat.leb 2 len && is_x tpc in
  let sp := if pre then 2%nat else 0%nat in
  let len := if pre then (len - 2)%nat else len in
  let idx := (Z.of_nat sp + Z.of_nat len - 1)%Z in
  tpc <- (if (idx <? 0)%Z then UB OutOfBounds else rd mem (Z.to_nat idx)) ;;
  let len := if is_h tpc then (len - 1)%nat else len in
  from_hex_loop (skipn sp s) (N.of_nat len mod 2) 0 0 out.

(** utils.c 79-93: loop of [pgfe_hash_string_clean], source and destination distinct. *)
Fixpoint clean_loop (cs : list N) (flag : Z) (k : nat) (out : list N) : outcome (nat * list N) :=
  match cs with
  | [] => Ret (k, out)
  | c :: r =>
      let flag' := if (flag <? 2)%Z then (flag + 1)%Z else flag in
      if (flag <? 2)%Z && (flag' =? 1)%Z && is_x c then clean_loop r flag' 0 out
      else if ch2hex c =? HEX_UNKNOWN then clean_loop r flag' k out
      else out <- wr out k c ;; clean_loop r flag' (k + 1) out
  end.
(** utils.c 74-97 [pgfe_hash_string_clean] with a separate output buffer. *)
Definition clean (s : list N) (out : list N) : outcome (nat * list N) :=
  '(k, out) <- clean_loop s (-1) 0 out ;;
  out <- wr out k 0 ;;
  Ret (k, out).

(** utils.c 79-93 when [output] aliases [hash_s]: one buffer, reads at [i], writes at [k].
    [fuel] bounds the number of characters visited; running out is [Hang]. *)
Fixpoint clean_alias_loop (fuel : nat) (buf : list N) (i : nat) (flag : Z) (k : nat)
  : outcome (nat * list N) :=
  match fuel with
  | O => Hang
  | S fuel =>
      c <- rd buf i ;;
      if c =? 0 then Ret (k, buf)
      else
        let flag' := if (flag <? 2)%Z then (flag + 1)%Z else flag in
        if (flag <? 2)%Z && (flag' =? 1)%Z && is_x c then clean_alias_loop fuel buf (i + 1) flag' 0
        else if ch2hex c =? HEX_UNKNOWN then clean_alias_loop fuel buf (i + 1) flag' k
        else buf <- wr buf k c ;; clean_alias_loop fuel buf (i + 1) flag' (k + 1)
  end.
(** utils.c 99-101 [pgfe_hash_string_clean_]; [buf] is the whole array holding the string. *)
Definition clean_in_place (buf : list N) : outcome (nat * list N) :=
  '(k, buf) <- clean_alias_loop (S (length buf)) buf 0 (-1) 0 ;;
  buf <- wr buf k 0 ;;
  Ret (k, buf).

(** utils.c 103-111 [pgfe_hash_length]; [garbage] is the uninitialised VLA s[len+1]. *)
Definition hash_length (s garbage : list N) : outcome nat :=
  '(_, v) <- clean s garbage ;;
  let len := length (upto_nul v) in
  Ret (len / 2 + len mod 2)%nat.

(** utils.cpp 29-37 [sequential_data::from_hex_string(const char* )]; [garbage] is the
    uninitialised VLA h_out[sz+1]. Returns the bytes handed to SequentialData. *)
Definition from_hex_string (s tail garbage : list N) : outcome (list N) :=
  '(n, h) <- from_hex s tail garbage ;;
  h <- wr h n 0 ;;
  Ret (firstn n h).
