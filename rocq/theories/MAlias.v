(** Model of the decoders and of the hexadecimal functions when the text and the output are parts of one array [mem]: the text at index [sp],
    the output at index [op]. Every read sees the writes made so far. (src/base_encoding/base-encoding-internal.c, src/core/utils.c.) Definitions only. *)
From Verif Require Import Base MUtils MBase.
Local Open Scope N_scope.

(** base-encoding-internal.c 115-126: for (i = 0; *sp && i < chunk_count; sp++); every round advances sp, so [length mem] rounds are enough *)
Fixpoint decode_chunk_at (fuel : nat) (p : base_params) (func : N -> N) (mem : list N) (sp i : nat) (u : N) : outcome (nat * nat * N) :=
  c <- rd mem sp ;;
  if c =? 0 then Ret (sp, i, u)
  else if Nat.ltb i (chunk_count p) then
    match fuel with
    | O => Hang
    | S fuel =>
        let ch := func c in
        if is_unknown ch then decode_chunk_at fuel p func mem (S sp) i u
        else decode_chunk_at fuel p func mem (S sp) (S i) (u64 (N.lor (N.shiftl u (N.of_nat (bit_size p))) (N.land ch (mkmask (bit_size p)))))
    end
  else Ret (sp, i, u).
(** base-encoding-internal.c 114-138: while ( *sp ) *)
Fixpoint decode_loop_at (fuel : nat) (p : base_params) (func : N -> N) (mem : list N) (sp : nat) (u : N) (op : nat) (last : option (list N))
  : outcome (nat * option (list N) * list N) :=
  c <- rd mem sp ;;
  if c =? 0 then Ret (op, last, mem)
  else
    match fuel with
    | O => Hang
    | S fuel =>
        '(sp, i, u) <- decode_chunk_at (length mem) p func mem sp 0 u ;;
        c <- rd mem sp ;;
        let u := if (c =? 0) && Nat.ltb i (chunk_count p) then u64 (N.shiftl u (N.of_nat (bit_size p * (chunk_count p - i)))) else u in
        let o_unit := unit_bytes p u in
        mem <- blit mem op o_unit ;;
        decode_loop_at fuel p func mem sp u (op + unit_size p) (Some o_unit)
    end.
(** base-encoding-internal.c 104-148 [decode_base_generic]; if no unit was written, o_unit is uninitialised and op is before the output *)
Definition decode_at (p : base_params) (func : N -> N) (mem : list N) (sp output : nat) : outcome (nat * list N) :=
  '(op, last, mem) <- decode_loop_at (S (length mem)) p func mem sp 0 output None ;;
  match last with
  | None => UB OutOfBounds
  | Some o_unit =>
      let op := (op - unit_size p)%nat in
      let i := scan_unit (firstn (unit_size p) (skipn op mem)) o_unit in
      mem <- wr mem (op + i) 0 ;;
      Ret ((op + i - output)%nat, mem)
  end.

(** utils.c 46-63 *)
Fixpoint from_hex_loop_at (fuel : nat) (mem : list N) (sp : nat) (pos hexu : N) (op : nat) : outcome (nat * list N) :=
  c <- rd mem sp ;;
  if c =? 0 then Ret (op, mem)
  else
    match fuel with
    | O => Hang
    | S fuel =>
        let tmp := ch2hex c in
        if tmp =? HEX_UNKNOWN then from_hex_loop_at fuel mem (S sp) pos hexu op
        else
          let hexu := N.lor hexu tmp in
          if pos =? 0 then from_hex_loop_at fuel mem (S sp) (N.lxor pos 1) (u8 (N.shiftl hexu 4)) op
          else mem <- wr mem op hexu ;; from_hex_loop_at fuel mem (S sp) (N.lxor pos 1) 0 (op + 1)
    end.
(** strlen *)
Fixpoint strlen_at (fuel : nat) (mem : list N) (sp : nat) : outcome nat :=
  c <- rd mem sp ;;
  if c =? 0 then Ret O else match fuel with O => Hang | S fuel => n <- strlen_at fuel mem (S sp) ;; Ret (S n) end.
(** utils.c 29-66 [pgfe_hex_string_to_hash]; as in MUtils.v the element before an empty string counts as outside *)
Definition from_hex_at (mem : list N) (hash_s hash_out : nat) : outcome (nat * list N) :=
  len <- strlen_at (length mem) mem hash_s ;;
  tpc <- rd mem (hash_s + 1) ;;
  let pre := Nat.leb 2 len && is_x tpc in
  let sp := if pre then (hash_s + 2)%nat else hash_s in
  let len := if pre then (len - 2)%nat else len in
  tpc <- (if Nat.eqb (sp + len) hash_s then UB OutOfBounds else rd mem (sp + len - 1)) ;;
  let len := if is_h tpc then (len - 1)%nat else len in
  '(op, mem) <- from_hex_loop_at (length mem) mem sp (N.of_nat len mod 2) 0 hash_out ;;
  Ret ((op - hash_out)%nat, mem).

(** utils.c 79-93 *)
Fixpoint clean_loop_at (fuel : nat) (mem : list N) (sp : nat) (flag : Z) (output op : nat) : outcome (nat * list N) :=
  c <- rd mem sp ;;
  if c =? 0 then Ret (op, mem)
  else
    match fuel with
    | O => Hang
    | S fuel =>
        let flag' := if (flag <? 2)%Z then (flag + 1)%Z else flag in
        if (flag <? 2)%Z && (flag' =? 1)%Z && is_x c then clean_loop_at fuel mem (S sp) flag' output output
        else if ch2hex c =? HEX_UNKNOWN then clean_loop_at fuel mem (S sp) flag' output op
        else mem <- wr mem op c ;; clean_loop_at fuel mem (S sp) flag' output (op + 1)
    end.
(** utils.c 74-97 [pgfe_hash_string_clean] *)
Definition clean_at (mem : list N) (hash_s output : nat) : outcome (nat * list N) :=
  '(op, mem) <- clean_loop_at (length mem) mem hash_s (-1) output output ;;
  mem <- wr mem op 0 ;;
  Ret ((op - output)%nat, mem).

(** utils.c 18-22 *)
Fixpoint to_hex_loop_at (n : nat) (mem : list N) (ip op : nat) : outcome (nat * list N) :=
  match n with
  | O => Ret (op, mem)
  | S n =>
      b <- rd mem ip ;;
      mem <- wr mem op (hexdig (b / 16)) ;;
      mem <- wr mem (op + 1) (hexdig (b mod 16)) ;;
      to_hex_loop_at n mem (S ip) (op + 2)
  end.
(** utils.c 15-27 [pgfe_hash_to_hex_string] of the [n] bytes at index [hash] *)
Definition to_hex_at (mem : list N) (hash n out : nat) : outcome (nat * list N) :=
  '(op, mem) <- to_hex_loop_at n mem hash out ;;
  mem <- wr mem op 0 ;;
  Ret ((op - out)%nat, mem).
