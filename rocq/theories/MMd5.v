(** Model of src/hashes/md5.c and md5-backend.c. Definitions only. *)
From Verif Require Import Base MSha MFront.
Local Open Scope N_scope.

(** md5-backend.c 11-14, on 32-bit words *)
Definition md5_F (x y z : N) := N.lor (N.land x y) (N.land (bnot 32 x) z).
Definition md5_G (x y z : N) := N.lor (N.land x z) (N.land y (bnot 32 z)).
Definition md5_H (x y z : N) := N.lxor (N.lxor x y) z.
Definition md5_I (x y z : N) := N.lxor y (N.lor x (bnot 32 z)).
(** md5-backend.c 16 [_ROUND_TRAN] *)
Definition round_tran (a apl b x s ac : N) : N :=
  let a := trunc 32 (a + (apl + x + ac)) in
  let a := clshift 32 a s in
  trunc 32 (a + b).
(** md5-backend.c 20-25 *)
Definition md5_S : list (list N) := [[7; 12; 17; 22]; [5; 9; 14; 20]; [4; 11; 16; 23]; [6; 10; 15; 21]].
(** md5-backend.c 27-32 *)
Definition md5_idx : list (list nat) :=
  [[0; 1; 2; 3; 4; 5; 6; 7; 8; 9; 10; 11; 12; 13; 14; 15];
   [1; 6; 11; 0; 5; 10; 15; 4; 9; 14; 3; 8; 13; 2; 7; 12];
   [5; 8; 11; 14; 1; 4; 7; 10; 13; 0; 3; 6; 9; 12; 15; 2];
   [0; 7; 14; 5; 12; 3; 10; 1; 8; 15; 6; 13; 4; 11; 2; 9]]%nat.
(** md5-backend.c 34-43 *)
Definition md5_ac : list (list N) :=
  [[0xd76aa478; 0xe8c7b756; 0x242070db; 0xc1bdceee; 0xf57c0faf; 0x4787c62a; 0xa8304613; 0xfd469501; 0x698098d8;
    0x8b44f7af; 0xffff5bb1; 0x895cd7be; 0x6b901122; 0xfd987193; 0xa679438e; 0x49b40821];
   [0xf61e2562; 0xc040b340; 0x265e5a51; 0xe9b6c7aa; 0xd62f105d; 0x2441453;  0xd8a1e681; 0xe7d3fbc8; 0x21e1cde6;
    0xc33707d6; 0xf4d50d87; 0x455a14ed; 0xa9e3e905; 0xfcefa3f8; 0x676f02d9; 0x8d2a4c8a];
   [0xfffa3942; 0x8771f681; 0x6d9d6122; 0xfde5380c; 0xa4beea44; 0x4bdecfa9; 0xf6bb4b60; 0xbebfbc70; 0x289b7ec6;
    0xeaa127fa; 0xd4ef3085; 0x4881d05;  0xd9d4d039; 0xe6db99e5; 0x1fa27cf8; 0xc4ac5665];
   [0xf4292244; 0x432aff97; 0xab9423a7; 0xfc93a039; 0x655b59c3; 0x8f0ccc92; 0xffeff47d; 0x85845dd1; 0x6fa87e4f;
    0xfe2ce6e0; 0xa3014314; 0x4e0811a1; 0xf7537e82; 0xbd3af235; 0x2ad7d2bb; 0xeb86d391]].
(** md5-backend.c 45-61 [_F]: the function of round r *)
Definition md5_fn (r : nat) : N -> N -> N -> N :=
  match r with 0%nat => md5_F | 1%nat => md5_G | 2%nat => md5_H | _ => md5_I end.

(** md5-backend.c 63-72 [md5_decode] of a 64-byte block: little-endian words (constant indices) *)
Definition load32le (b : list N) (i : nat) : N :=
  N.lor (N.lor (N.lor (nth (4 * i) b 0) (trunc 32 (N.shiftl (nth (4 * i + 1) b 0) 8)))
        (trunc 32 (N.shiftl (nth (4 * i + 2) b 0) 16))) (trunc 32 (N.shiftl (nth (4 * i + 3) b 0) 24)).
(** md5-backend.c 74-83 [md5_encode] *)
Definition md5_encode (ws : list N) : list N :=
  flat_map (fun v => [N.land v 0xFF; N.land (N.shiftr v 8) 0xFF; N.land (N.shiftr v 16) 0xFF; N.land (N.shiftr v 24) 0xFF]) ws.

(** buf[i] = v *)
Definition upd (l : list N) (i : nat) (v : N) : list N := firstn i l ++ v :: skipn (S i) l.
(** md5-backend.c 101-102: iteration i of round r on buf[4] *)
Definition md5_step (r : nat) (x : list N) (buf : list N) (i : nat) : list N :=
  let O k := nth ((i + k) mod 4) buf 0 in
  upd buf ((i + 3) mod 4)
    (round_tran (O 3%nat) (md5_fn r (O 2%nat) (O 1%nat) (O 0%nat)) (O 2%nat) (nth (nth i (nth r md5_idx []) 0%nat) x 0)
       (nth (i mod 4) (nth r md5_S []) 0) (nth i (nth r md5_ac []) 0)).
(** md5-backend.c 85-113 [md5_transform], effect on state[4] *)
Definition md5_transform (s block : list N) : list N :=
  let buf := [nth 3 s 0; nth 2 s 0; nth 1 s 0; nth 0 s 0] in
  let x := map (load32le block) (seq 0 16) in
  let buf := fold_left (fun buf r => fold_left (md5_step r x) (seq 0 16) buf) (seq 0 4) buf in
  [trunc 32 (nth 0 s 0 + nth 3 buf 0); trunc 32 (nth 1 s 0 + nth 2 buf 0);
   trunc 32 (nth 2 s 0 + nth 1 buf 0); trunc 32 (nth 3 s 0 + nth 0 buf 0)].

(** struct pgfe_md5_ctx (md5.h 22-27) *)
Record md5_ctx := mkMd5 { mstate : list N; block_len : N; mblock : list N }.
(** md5.c 18 *)
Definition md5_H0 : list N := [0x67452301; 0xefcdab89; 0x98badcfe; 0x10325476].
(** md5.c 20-23 *)
Definition PADDING : list N := 0x80 :: repeat 0 63.
(** md5.c 25-30 *)
Definition md5_init (c : md5_ctx) : md5_ctx := mkMd5 md5_H0 0 (mblock c).

(** md5.c 38-50: the block loop. [rest] is the input from p on; [wl] is the value of the local
    [written_len], [None] while uninitialised. The fuel bounds the number of iterations. *)
Fixpoint md5_loop (fuel : nat) (c : md5_ctx) (rest : list N) (wl : option nat) : outcome (md5_ctx * list N * option nat) :=
  match fuel with
  | O => Hang
  | S fuel =>
      match rest with
      | [] => Ret (c, rest, wl)
      | _ =>
          let offset := N.to_nat (u8 (N.land (block_len c) 0x3F)) in
          let written := (64 - offset)%nat in
          if Nat.ltb (length rest) written then Ret (c, rest, Some written)
          else
            blk <- blit (mblock c) offset (firstn written rest) ;;
            let c := mkMd5 (md5_transform (mstate c) blk) (u64 (block_len c + N.of_nat written)) blk in
            md5_loop fuel c (skipn written rest) (Some written)
      end
  end.
(** md5.c 32-64. The local [offset] used by the final copy is the one of the iteration that broke
    out of the loop, i.e. of the current [block_len]. [garbage] is what reading the uninitialised
    [written_len] (zero-length input) yields: [None] for the C standard's view (undefined). *)
Definition md5_update (garbage : option N) (c : md5_ctx) (inp : list N) : outcome md5_ctx :=
  '(c, rest, wl) <- md5_loop (S (length inp)) c inp None ;;
  remainder <- match wl with
               | Some w => Ret (N.of_nat w)
               | None => match garbage with Some v => Ret v | None => UB Indeterminate end
               end ;;
  '(c, remainder) <-
    (match rest with
     | [] => Ret (c, remainder)
     | _ => let offset := N.to_nat (u8 (N.land (block_len c) 0x3F)) in
            blk <- blit (mblock c) offset rest ;;
            Ret (mkMd5 (mstate c) (u64 (block_len c + N.of_nat (length rest))) blk, remainder - N.of_nat (length rest))
     end) ;;
  if remainder =? 0 then Ret (mkMd5 (md5_transform (mstate c) (mblock c)) (block_len c) (mblock c)) else Ret c.

(** md5.c 66-84 *)
Definition md5_digest (garbage : option N) (c : md5_ctx) (out : list N) : outcome (md5_ctx * list N) :=
  let count0 := u32 (N.shiftl (block_len c) 3) in
  let count1 := u32 (N.shiftr (block_len c) 29) in
  let chunk := md5_encode [count0; count1] in
  let i := N.to_nat (N.land (block_len c) 0x3F) in
  let n := if Nat.ltb i 56 then (56 - i)%nat else (120 - i)%nat in
  c <- (if Nat.leb n (length PADDING) then md5_update garbage c (firstn n PADDING) else UB OutOfBounds) ;;
  c <- md5_update garbage c chunk ;;
  out <- blit out 0 (md5_encode (mstate c)) ;;
  Ret (c, out).

(** md5.h 19-20; FRONTEND_GEN2(md5) *)
Definition md5_impl (garbage : option N) : hash_impl :=
  mkImpl md5_ctx (fun c => length (mblock c) = 64%nat) md5_init (md5_update garbage) (md5_digest garbage) 64 16.
