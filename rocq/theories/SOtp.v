(** RFC 4226 (HOTP) and RFC 6238 (TOTP), independent of the model. *)
From Verif Require Import Base SHmac.
Local Open Scope N_scope.

(** RFC 4226 section 5.1: "C: 8-byte counter value", high-order byte first *)
Definition counter_bytes (c : N) : list N := map (fun i => (c / 256 ^ N.of_nat (7 - i)) mod 256) (seq 0 8).
(** big-endian value of a byte string *)
Definition be_value (l : list N) : N := fold_left (fun v b => v * 256 + b) l 0.
(** RFC 4226 section 5.3: DT; OffsetBits are the low-order 4 bits of the last byte (String[19] for SHA-1) *)
Definition dt_offset (s : list N) : nat := N.to_nat (last s 0 mod 16).
Definition DT (s : list N) : N := be_value (firstn 4 (skipn (dt_offset s) s)) mod 2 ^ 31.
(** RFC 4226 section 5.3: HOTP value = Snum mod 10^Digit *)
Definition HOTP (H : list N -> list N) (B : nat) (secret : list N) (counter digits : N) : N :=
  DT (HMAC H B secret (counter_bytes counter)) mod 10 ^ digits.
(** RFC 6238 section 4.2: T = (Current Unix time - T0) / X, floor *)
Definition time_step (now t0 : Z) (x : N) : Z := ((now - t0) / Z.of_N x)%Z.

(** decimal text: ASCII digits, most significant first *)
Definition is_digit (c : N) : Prop := 48 <= c <= 57.
Definition dec_value (s : list N) : N := fold_left (fun v c => v * 10 + (c - 48)) s 0.
(** [s] is the decimal text of [v] with exactly [n] digits *)
Definition decimal (n : nat) (v : N) (s : list N) : Prop := length s = n /\ Forall is_digit s /\ dec_value s = v.

(** RFC 4226 appendix D: the truncated values for counts 0..2 with the HMAC-SHA-1 values listed there *)
Definition hex_bytes (v : N) (n : nat) : list N := map (fun i => (v / 256 ^ N.of_nat (n - 1 - i)) mod 256) (seq 0 n).
Example rfc4226_appendix_d :
  DT (hex_bytes 0xcc93cf18508d94934c64b65d8ba7667fb7cde4b0 20) = 1284755224 /\
  DT (hex_bytes 0x75a48a19d4cbe100644e8ac1397eea747a2d33ab 20) = 1094287082 /\
  DT (hex_bytes 0x0bacb7fa082fef30782211938bc1c5e70416ff44 20) = 137359152 /\
  1284755224 mod 10 ^ 6 = 755224.
Proof. repeat split; vm_compute; reflexivity. Qed.
