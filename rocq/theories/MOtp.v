(** Model of src/otp/otp-generic.c, hotp.c, totp-internal.c, totp.c, and of [reverse] in
    src/core/generic-internal.c. Definitions only. *)
From Verif Require Import Base MFront MHmac.
Local Open Scope N_scope.

(** a * 2^8-digit view of a little-endian unsigned integer: the [n] bytes a memcpy from it yields *)
Fixpoint le_bytes (n : nat) (v : N) : list N :=
  match n with O => [] | S n => v mod 256 :: le_bytes n (v / 256) end.

(** generic-internal.c 39-47 [reverse]: [low], [high] are indices into [a]; the loop shrinks high - low *)
Fixpoint reverse_loop (fuel : nat) (a : list N) (low high : nat) : outcome (list N) :=
  match fuel with
  | O => Hang
  | S fuel =>
      if Nat.ltb low high then
        tmp <- rd a low ;;
        x <- rd a high ;;
        a <- wr a low x ;;
        a <- wr a high tmp ;;
        reverse_loop fuel a (S low) (high - 1)
      else Ret a
  end.
Definition reverse (a : list N) (low high : nat) : outcome (list N) := reverse_loop (S high) a low high.

(** otp-generic.c 17-20: the loop over i < SIZE = 4; [i] counts up, [k] iterations are left *)
Fixpoint trunc_loop (k i : nat) (hash : list N) (offset : nat) (code : N) : outcome N :=
  match k with
  | O => Ret code
  | S k =>
      b <- rd hash (offset + i) ;;
      trunc_loop k (S i) hash offset (N.lor (u32 (N.shiftl code 8)) b)
  end.
(** otp-generic.c 13-23 [dynamically_truncate] *)
Definition dynamically_truncate (hash : list N) (len : nat) : outcome N :=
  b <- rd hash (len - 1) ;;
  let offset := N.land b 0xF in
  code <- trunc_loop 4 0 hash (N.to_nat offset) 0 ;;
  Ret (N.shiftr (u32 (N.shiftl code 1)) 1).

(** otp-generic.c 25-34 [otp_to_string]: [k] is sp - cs_out + 1. (At the end the loop forms the
    pointer cs_out - 1 without using it; taken as harmless.) *)
Fixpoint to_string_loop (k : nat) (otp : N) (out : list N) : outcome (list N) :=
  match k with
  | O => Ret out
  | S k => out <- wr out k (otp mod 10 + 48) ;; to_string_loop k (otp / 10) out
  end.
Definition otp_to_string (otp : N) (out : list N) (digit_c : nat) : outcome (list N) :=
  out <- to_string_loop digit_c otp out ;;
  wr out digit_c 0.

(** hotp.c 23 *)
Definition DIGITS_POW : list N :=
  [1; 10; 100; 1000; 10000; 100000; 1000000; 10000000; 100000000; 1000000000].
(** otp-generic.h 25 *)
Definition OTP_DIGIT_MAX_LIMIT : N := 10.

(** hotp.c 36-37 (__PGFE_BATCH_CASES with SET_SIZE): the PGFE_*_DIGEST_SIZE macros
    (md5.h 19, sha1.h 19, sha2.h 20-26, sha3.h 39-46) *)
Definition digest_size (a : alg_choice) : nat :=
  match a with
  | A_MD5 => 16 | A_SHA1 => 20 | A_SHA224 => 28 | A_SHA256 => 32 | A_SHA384 => 48 | A_SHA512 => 64
  | A_SHA512_224 => 28 | A_SHA512_256 => 32
  | A_SHA3_224 => 28 | A_SHA3_256 => 32 | A_SHA3_384 => 48 | A_SHA3_512 => 64
  | A_RawSHAKE128 | A_SHAKE128 => 32 | A_RawSHAKE256 | A_SHAKE256 => 64
  end.

(** hotp.c 31-53 [pgfe_hotp_generic]. [out_hash]: the initial contents of the local array of
    digest_size bytes; [g], [l], [garbage]: the uninitialised locals inside pgfe_hmac. The machine is
    little-endian. *)
Definition hotp_generic (garbage : option N) (a : alg_choice) (g : ectx (sp_case garbage a)) (l : eloc (sp_case garbage a))
    (out_hash : list N) (secret : list N) (counter : N) (digit_c : N) : outcome N :=
  let counter_h := le_bytes 8 counter in
  counter_h <- reverse counter_h 0 7 ;;
  out_hash <- pgfe_hmac garbage a g l secret counter_h out_hash ;;
  result <- dynamically_truncate out_hash (digest_size a) ;;
  if digit_c <? OTP_DIGIT_MAX_LIMIT
  then p <- rd DIGITS_POW (N.to_nat digit_c) ;; Ret (result mod p)
  else Ret result.

(** hotp.c 55-70 *)
Definition hotp garbage := hotp_generic garbage A_SHA1.
Definition hotp_4digits garbage g l out secret counter := hotp garbage g l out secret counter 4.
Definition hotp_6digits garbage g l out secret counter := hotp garbage g l out secret counter 6.
Definition hotp_8digits garbage g l out secret counter := hotp garbage g l out secret counter 8.

(** ** Time: time_t is a signed 64-bit integer, pgfe_totp_delta_t a signed 32-bit one *)
Definition is_time (t : Z) : Prop := (- 2 ^ 63 <= t < 2 ^ 63)%Z.
Definition time_sub (a b : Z) : outcome Z :=
  if ((- 2 ^ 63 <=? a - b) && (a - b <? 2 ^ 63))%Z then Ret (a - b)%Z else UB SignedOverflow.
(** conversion to int32_t (implementation-defined: modulo 2^32, as gcc and clang do) *)
Definition to_i32 (x : Z) : Z := ((x + 2 ^ 31) mod 2 ^ 32 - 2 ^ 31)%Z.
(** conversion to uint64_t *)
Definition to_u64 (x : Z) : N := Z.to_N (x mod 2 ^ 64)%Z.

(** totp-internal.c 3-11 [calc_periodic_counter]. The interval (uint32_t) is converted to time_t; % and /
    truncate towards zero. Returns the counter and the value stored through delta_out ([None]: null
    pointer, nothing stored). *)
Definition calc_periodic_counter (realtime : Z) (interval : N) (initial_time : Z) (want_delta : bool)
  : outcome (N * option Z) :=
  time_offset <- time_sub realtime initial_time ;;
  if interval =? 0 then UB DivByZero
  else
    let iv := Z.of_N interval in
    Ret (to_u64 (Z.quot time_offset iv),
         if want_delta then Some (to_i32 (iv - Z.rem time_offset iv)) else None).

(** totp.c 17-23 [pgfe_totp_generic]; [now] is what time(NULL) returns *)
Definition totp_generic (garbage : option N) (a : alg_choice) (g : ectx (sp_case garbage a)) (l : eloc (sp_case garbage a))
    (out_hash : list N) (secret : list N) (digit_c : N) (interval : N) (initial_time : Z) (want_delta : bool) (now : Z)
  : outcome (N * option Z) :=
  '(counter, d) <- calc_periodic_counter now interval initial_time want_delta ;;
  v <- hotp_generic garbage a g l out_hash secret counter digit_c ;;
  Ret (v, d).
(** totp.c 25-30 *)
Definition totp garbage g l out_hash secret digit_c interval := totp_generic garbage A_SHA1 g l out_hash secret digit_c interval 0%Z.
(** totp.c 32-48 *)
Definition totp_4digits garbage g l out_hash secret := totp garbage g l out_hash secret 4.
Definition totp_6digits garbage g l out_hash secret := totp garbage g l out_hash secret 6.
Definition totp_8digits garbage g l out_hash secret := totp garbage g l out_hash secret 8.

(** ** Strings (abstract_otp.cpp 26-33 [generate_str]) *)
(** std::to_string of an unsigned integer: decimal, no leading zeros; [fuel]: at most that many further
    digits (an uint32_t has at most 10) *)
Fixpoint dec_digits (fuel : nat) (v : N) : list N :=
  match fuel with
  | O => [v mod 10 + 48]
  | S fuel => if v <? 10 then [v + 48] else dec_digits fuel (v / 10) ++ [v mod 10 + 48]
  end.
Definition std_to_string (v : N) : list N := dec_digits 9 v.
(** abstract_otp.cpp 28-30: while (str.length() < digit_count) insert a '0' in front *)
Fixpoint pad_loop (fuel : nat) (s : list N) (digit_count : nat) : outcome (list N) :=
  match fuel with
  | O => Hang
  | S fuel => if Nat.ltb (length s) digit_count then pad_loop fuel (48 :: s) digit_count else Ret s
  end.
Definition otp_str (v : N) (digit_count : N) : outcome (list N) :=
  pad_loop (S (N.to_nat digit_count)) (std_to_string v) (N.to_nat digit_count).
