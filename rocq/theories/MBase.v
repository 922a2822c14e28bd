(** Model of src/base_encoding/base-encoding-internal.c, base16.c, base32.c, base64.c.
    Definitions only. *)
From Coq Require Import String.
From Verif Require Import Base.

(** PGFE_BASE_PARAMS (base-encoding-internal.h 23-26; constants in base16.h, base32.h, base64.h). *)
Record base_params := mkParams {
  chunk_count : nat; unit_size : nat; bit_size : nat; alphabet_size : nat }.
Definition base16_params := mkParams 2 1 4 16.   (* include/libpgfe/base_encoding/base16.h *)
Definition base32_params := mkParams 8 5 5 32.   (* include/libpgfe/base_encoding/base32.h *)
Definition base64_params := mkParams 4 3 6 64.   (* include/libpgfe/base_encoding/base64.h *)

Local Open Scope N_scope.

(** base-encoding-internal.c 17 [__mkmask(digit)] = UINT8_MAX >> (8 - digit) *)
Definition mkmask (d : nat) : N := N.shiftr 255 (8 - N.of_nat d).

(** base-encoding-internal.c 26-45: the loop of [transform].
    [mem] is the memory from input[0] on (the unit and whatever follows it),
    [out] the memory from out[0] on; [inp] and [k] are inp - input and op - out.
    Accesses outside [mem]/[out] are UB. Running out of fuel is [Hang]. *)
Fixpoint transform_loop (fuel : nat) (mem out : list N) (len chunk : nat)
         (inp k low high : nat) : outcome (nat * list N) :=
  match fuel with
  | O => Hang
  | S fuel =>
    if Nat.leb inp len then
      '(inp', out') <-
        (if Nat.ltb low high then
           b <- rd mem inp ;;
           out <- wr out k (N.land (N.shiftr b (8 - N.of_nat high)) (mkmask chunk)) ;;
           Ret (inp, out)                     (* inp--, undone by the loop's inp++ *)
         else if Nat.eqb high 0 then
           b <- rd mem inp ;;
           out <- wr out k (N.land b (mkmask chunk)) ;;
           Ret (S inp, out)
         else
           let sz_diff := (8 - low)%nat in
           let mv_sz := (chunk - sz_diff)%nat in
           b <- rd mem inp ;;
           out <- wr out k (u8 (N.shiftl (N.land b (mkmask sz_diff)) (N.of_nat mv_sz))) ;;
           out <- (if Nat.ltb (inp + 1) len then
                     b1 <- rd mem (inp + 1) ;;
                     o <- rd out k ;;
                     wr out k (N.lor o (N.land (N.shiftr b1 (8 - N.of_nat high)) (mkmask high)))
                   else Ret out) ;;
           Ret (S inp, out)) ;;
      transform_loop fuel mem out' len chunk inp' (S k) ((low + chunk) mod 8)%nat ((high + chunk) mod 8)%nat
    else Ret (k, out)
  end.
(** base-encoding-internal.c 19-48 [transform] *)
Definition transform (mem : list N) (len chunk : nat) (out : list N) : outcome (nat * list N) :=
  transform_loop (2 * (8 * (len + 1))) mem out len chunk 0 0 0 (chunk mod 8)%nat.

(** base-encoding-internal.c 64-70: replace trailing zero symbols by the padding character;
    the loop runs from the last character down, i.e. over the reversed list. *)
Fixpoint pad_rev (zero pad : N) (rev_s : list N) : list N :=
  match rev_s with
  | [] => []
  | c :: r => if c =? zero then pad :: pad_rev zero pad r else c :: r
  end.

(** base-encoding-internal.c 59-61: unit_s[i] = alphabet[unit_split[i]] *)
Fixpoint lookup_all (alphabet vals : list N) : outcome (list N) :=
  match vals with
  | [] => Ret []
  | v :: r => c <- rd alphabet (N.to_nat v) ;; cs <- lookup_all alphabet r ;; Ret (c :: cs)
  end.

(** base-encoding-internal.c 50-75 [unittostr], returning the characters copied to [out].
    [mem]: memory from the unit on; [scratch]: memory from unit_split[0] on (uninitialised
    array of chunk_count bytes followed by whatever is adjacent on the stack). *)
Definition unittostr (p : base_params) (alphabet mem scratch : list N) (padding : bool)
  : outcome (list N) :=
  '(_, split) <- transform mem (unit_size p) (bit_size p) scratch ;;
  s <- lookup_all alphabet (firstn (chunk_count p) split) ;;
  if padding then
    zero <- rd alphabet 0 ;; pad <- rd alphabet (alphabet_size p) ;;
    Ret (rev (pad_rev zero pad (rev s)))
  else Ret s.

(** Stack contents seen by the n-th call of [unittostr]: what follows input_unit[], and
    the memory starting at unit_split[]. *)
Record stack := mkStack { after_unit : nat -> list N; scratch : nat -> list N }.

(** base-encoding-internal.c 85-98: encode loop. [rest] is the input from inp on,
    [n] the number of units done, [sp] = sp - cs_out. *)
Fixpoint encode_loop (fuel : nat) (p : base_params) (alphabet : list N) (st : stack)
         (n : nat) (rest : list N) (sp : nat) (out : list N) : outcome (nat * list N) :=
  match rest with
  | [] => Ret (sp, out)
  | _ =>
    match fuel with
    | O => Hang
    | S fuel =>
      let remain := length rest in
      let short := Nat.ltb remain (unit_size p) in
      let input_unit := if short then rest ++ repeat 0 (unit_size p - remain)
                        else firstn (unit_size p) rest in
      s <- unittostr p alphabet (input_unit ++ after_unit st n) (scratch st n) short ;;
      out <- blit out sp s ;;
      encode_loop fuel p alphabet st (S n) (skipn (unit_size p) rest) (sp + chunk_count p) out
    end
  end.
(** base-encoding-internal.c 77-102 [encode_base_generic] *)
Definition encode_base_generic (p : base_params) (alphabet : list N) (st : stack)
           (input : list N) (out : list N) : outcome (nat * list N) :=
  '(sp, out) <- encode_loop (S (length input)) p alphabet st 0 input 0 out ;;
  out <- wr out sp 0 ;;
  Ret (sp, out).

(** base-encoding-internal.h 21 UNKNOWN_CODE; base-encoding-internal.c 117-121 [sig == UNKNOWN_CODE] *)
Definition UNKNOWN_CODE : N := 0xC0.
Definition is_unknown (ch : N) : bool := N.land ch 0xC0 =? UNKNOWN_CODE.

(** base-encoding-internal.c 115-126: read characters until [chunk_count] were accepted or
    the NUL; returns (remaining string, i, u). *)
Fixpoint decode_chunk (p : base_params) (func : N -> N) (cs : list N) (i : nat) (u : N)
  : list N * nat * N :=
  match cs with
  | [] => ([], i, u)
  | c :: r =>
      if Nat.ltb i (chunk_count p) then
        let ch := func c in
        if is_unknown ch then decode_chunk p func r i u
        else decode_chunk p func r (S i)
               (u64 (N.lor (N.shiftl u (N.of_nat (bit_size p))) (N.land ch (mkmask (bit_size p)))))
      else (cs, i, u)
  end.

(** base-encoding-internal.c 132-134: o_unit[j] *)
Definition unit_bytes (p : base_params) (u : N) : list N :=
  map (fun j => N.land (N.shiftr u (8 * N.of_nat (unit_size p - j - 1))) 255) (seq 0 (unit_size p)).

(** base-encoding-internal.c 114-138: outer loop; [last] is o_unit of the previous round
    (None while it is still uninitialised), [op] = op - output. *)
Fixpoint decode_loop (fuel : nat) (p : base_params) (func : N -> N) (cs : list N) (u : N)
         (op : nat) (last : option (list N)) (out : list N)
  : outcome (nat * option (list N) * list N) :=
  match cs with
  | [] => Ret (op, last, out)
  | _ =>
    match fuel with
    | O => Hang
    | S fuel =>
      let '(rest, i, u) := decode_chunk p func cs 0 u in
      let u := match rest with
               | [] => if Nat.ltb i (chunk_count p)
                       then u64 (N.shiftl u (N.of_nat (bit_size p * (chunk_count p - i)))) else u
               | _ => u
               end in
      let o_unit := unit_bytes p u in
      out <- blit out op o_unit ;;
      decode_loop fuel p func rest u (op + unit_size p) (Some o_unit) out
    end
  end.

(** base-encoding-internal.c 142: scan of the last unit; op[i] has just been written and
    equals o_unit[i]. *)
Fixpoint scan_unit (op_mem o_unit : list N) : nat :=
  match op_mem, o_unit with
  | a :: r, b :: s => if (a =? b) && negb (a =? 0) then S (scan_unit r s) else 0%nat
  | _, _ => 0%nat
  end.

(** base-encoding-internal.c 104-148 [decode_base_generic]. If no unit was written,
    op - unit_size points before the output array and op[0] is read: UB. *)
Definition decode_base_generic (p : base_params) (func : N -> N) (cs : list N) (out : list N)
  : outcome (nat * list N) :=
  '(op, last, out) <- decode_loop (S (length cs)) p func cs 0 0 None out ;;
  match last with
  | None => UB OutOfBounds
  | Some o_unit =>
      let op := (op - unit_size p)%nat in
      let i := scan_unit (firstn (unit_size p) (skipn op out)) o_unit in
      out <- wr out (op + i) 0 ;;
      Ret ((op + i)%nat, out)
  end.

(** base16.c 13-14 (with the "compatibility addition") *)
Definition BASE16_ALPHABET := chars "0123456789ABCDEF0".
(** base32.c 17-19, 23-25 *)
Definition BASE32_ALPHABET := chars "ABCDEFGHIJKLMNOPQRSTUVWXYZ234567=".
Definition BASE32_ALPHABET_EXTHEX := chars "0123456789ABCDEFGHIJKLMNOPQRSTUV=".
(** base64.c 16-20, 24-28 *)
Definition BASE64_ALPHABET := chars "ABCDEFGHIJKLMNOPQRSTUVWXYZabcdefghijklmnopqrstuvwxyz0123456789+/=".
Definition BASE64_ALPHABET_FS := chars "ABCDEFGHIJKLMNOPQRSTUVWXYZabcdefghijklmnopqrstuvwxyz0123456789-_=".

(** character ranges; for bytes >= 128 a signed char is negative and an unsigned char is
    above every bound, both fail *)
Definition between (lo hi c : N) : bool := (lo <=? c) && (c <=? hi).

(** base16.c 16-33 *)
Definition decode_base16_char (c : N) : N :=
  if between 48 57 c then c - 48
  else if between 65 70 c then c - 65 + 10
  else if between 97 102 c then c - 97 + 10
  else UNKNOWN_CODE.
(** base32.c 27-47 *)
Definition decode_base32_char (c : N) : N :=
  if between 50 55 c then c - 50 + 26
  else if between 65 90 c then c - 65
  else if between 97 122 c then c - 97
  else if c =? 61 then 0
  else UNKNOWN_CODE.
(** base32.c 49-69 *)
Definition decode_base32hex_char (c : N) : N :=
  if between 48 57 c then c - 48
  else if between 65 86 c then c - 65 + 10
  else if between 97 118 c then c - 97 + 10
  else if c =? 61 then 0
  else UNKNOWN_CODE.
(** base64.c 30-56 *)
Definition decode_base64_char (c : N) : N :=
  if between 97 122 c then c - 97 + 26
  else if between 48 57 c then c - 48 + 52
  else if between 65 90 c then c - 65
  else if (c =? 43) || (c =? 45) then 62
  else if (c =? 47) || (c =? 95) then 63
  else if c =? 61 then 0
  else UNKNOWN_CODE.

(** base16.c 35-41, base32.c 71-85, base64.c 58-68 *)
Definition encode_base16 := encode_base_generic base16_params BASE16_ALPHABET.
Definition decode_base16 := decode_base_generic base16_params decode_base16_char.
Definition encode_base32 := encode_base_generic base32_params BASE32_ALPHABET.
Definition encode_base32hex := encode_base_generic base32_params BASE32_ALPHABET_EXTHEX.
Definition decode_base32 := decode_base_generic base32_params decode_base32_char.
Definition decode_base32hex := decode_base_generic base32_params decode_base32hex_char.
Definition encode_base64 := encode_base_generic base64_params BASE64_ALPHABET.
Definition encode_base64_url := encode_base_generic base64_params BASE64_ALPHABET_FS.
Definition decode_base64 := decode_base_generic base64_params decode_base64_char.
