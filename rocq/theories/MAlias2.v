(** Model of the base encoders and of Blowfish encryption and decryption when the input and the output are parts of one array [mem]: the input at index [ip],
    the output at index [out]. Every read sees the writes made so far. (src/base_encoding/base-encoding-internal.c, src/fishes/blowfish.c.) Definitions only. *)
From Verif Require Import Base MBase MBlowfish.
Local Open Scope nat_scope.

(** memcpy from mem + i: [n] bytes *)
Definition rd_bytes (mem : list N) (i n : nat) : outcome (list N) :=
  if Nat.leb (i + n) (length mem) then Ret (firstn n (skipn i mem)) else UB OutOfBounds.

(** base-encoding-internal.c 85-98: [len] bytes left, inp at index [ip], [n] units done, sp at index [sp] *)
Fixpoint encode_loop_at (fuel : nat) (p : base_params) (alphabet : list N) (st : stack) (n : nat) (mem : list N) (ip len sp : nat) : outcome (nat * list N) :=
  match len with
  | O => Ret (sp, mem)
  | _ =>
    match fuel with
    | O => Hang
    | S fuel =>
        let short := Nat.ltb len (unit_size p) in
        data <- rd_bytes mem ip (if short then len else unit_size p) ;;
        let input_unit := if short then data ++ repeat 0%N (unit_size p - len) else data in
        s <- unittostr p alphabet (input_unit ++ after_unit st n) (scratch st n) short ;;
        mem <- blit mem sp s ;;
        encode_loop_at fuel p alphabet st (S n) mem (ip + unit_size p) (len - unit_size p) (sp + chunk_count p)
    end
  end.
(** base-encoding-internal.c 77-102 [encode_base_generic] *)
Definition encode_at (p : base_params) (alphabet : list N) (st : stack) (mem : list N) (ip len out : nat) : outcome (nat * list N) :=
  '(sp, mem) <- encode_loop_at (S len) p alphabet st 0 mem ip len out ;;
  mem <- wr mem sp 0%N ;;
  Ret (sp - out, mem).

(** blowfish.c 250-253 and 263-266 *)
Fixpoint store_loop_at (k j : nat) (unp mem : list N) (out : nat) : outcome (list N) :=
  match k with
  | O => Ret mem
  | S k => b <- rd unp (7 - j mod 8) ;; mem <- wr mem (out + j) b ;; store_loop_at k (S j) unp mem out
  end.
(** blowfish.c 243-255 *)
Fixpoint bf_loop_at (f : dword -> outcome dword) (ip k i : nat) (unp mem : list N) (out : nat) : outcome (list N * list N) :=
  match k with
  | O => Ret (unp, mem)
  | S k =>
      b <- rd mem (ip + i) ;;
      unp <- wr unp (7 - i mod 8) b ;;
      if Nat.eqb (i mod 8) 7 then
        unp <- unit_call f unp ;;
        mem <- store_loop_at 8 (i - 7) unp mem out ;;
        bf_loop_at f ip k (S i) unp mem out
      else bf_loop_at f ip k (S i) unp mem out
  end.
(** blowfish.c 235-270 [__blowfish_en_decrypt_generic] *)
Definition bf_at (f : dword -> outcome dword) (unp mem : list N) (ip len out : nat) : outcome (nat * list N) :=
  '(unp, mem) <- bf_loop_at f ip len 0 unp mem out ;;
  if Nat.eqb (len mod 8) 0 then Ret (len, mem)
  else
    let rem := 8 - len mod 8 in
    unp <- blit unp 0 (repeat 0%N rem) ;;
    unp <- unit_call f unp ;;
    let i := len + rem in
    mem <- store_loop_at 8 (i - 8) unp mem out ;;
    Ret (i, mem).
(** blowfish.c 272-282 *)
Definition blowfish_encrypt_at (c : bf_ctx) := bf_at (encrypt_unit c).
Definition blowfish_decrypt_at (c : bf_ctx) := bf_at (decrypt_unit c).
