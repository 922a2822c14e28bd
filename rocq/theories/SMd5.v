(** RFC 1321 (MD5), written from the RFC; independent of the model. *)
From Coq Require Import String.
From Verif Require Import Base SHex SFips180.
Local Open Scope N_scope.

(** little-endian representation of the low [8n] bits of [v] in [n] bytes *)
Definition le_bytes (n : nat) (v : N) : list N := map (fun i => (v / 256 ^ N.of_nat i) mod 256) (seq 0 n).
Fixpoint le_value (l : list N) : N := match l with [] => 0 | b :: r => b + 256 * le_value r end.

(** 3.4: the auxiliary functions *)
Definition F (x y z : N) := N.lor (N.land x y) (N.land (notw 32 x) z).
Definition G (x y z : N) := N.lor (N.land x z) (N.land y (notw 32 z)).
Definition H (x y z : N) := N.lxor (N.lxor x y) z.
Definition I (x y z : N) := N.lxor y (N.lor x (notw 32 z)).
(** 3.4: the table T[1 ... 64], T[i] = integer part of 4294967296 * |sin i| (proved in PropConst.v);
    reference listing of appendix A.3 *)
Definition T : list N :=
  [0xd76aa478; 0xe8c7b756; 0x242070db; 0xc1bdceee; 0xf57c0faf; 0x4787c62a; 0xa8304613; 0xfd469501;
   0x698098d8; 0x8b44f7af; 0xffff5bb1; 0x895cd7be; 0x6b901122; 0xfd987193; 0xa679438e; 0x49b40821;
   0xf61e2562; 0xc040b340; 0x265e5a51; 0xe9b6c7aa; 0xd62f105d; 0x02441453; 0xd8a1e681; 0xe7d3fbc8;
   0x21e1cde6; 0xc33707d6; 0xf4d50d87; 0x455a14ed; 0xa9e3e905; 0xfcefa3f8; 0x676f02d9; 0x8d2a4c8a;
   0xfffa3942; 0x8771f681; 0x6d9d6122; 0xfde5380c; 0xa4beea44; 0x4bdecfa9; 0xf6bb4b60; 0xbebfbc70;
   0x289b7ec6; 0xeaa127fa; 0xd4ef3085; 0x04881d05; 0xd9d4d039; 0xe6db99e5; 0x1fa27cf8; 0xc4ac5665;
   0xf4292244; 0x432aff97; 0xab9423a7; 0xfc93a039; 0x655b59c3; 0x8f0ccc92; 0xffeff47d; 0x85845dd1;
   0x6fa87e4f; 0xfe2ce6e0; 0xa3014314; 0x4e0811a1; 0xf7537e82; 0xbd3af235; 0x2ad7d2bb; 0xeb86d391].

(** Operation number n (0..63): a = b + ((a + f(b,c,d) + X[k] + T[n+1]) <<< s); then the four
    registers change roles: [ABCD], [DABC], [CDAB], [BCDA]. *)
Definition fn (n : nat) : N -> N -> N -> N :=
  if Nat.ltb n 16 then F else if Nat.ltb n 32 then G else if Nat.ltb n 48 then H else I.
Definition word_index (n : nat) : nat :=
  if Nat.ltb n 16 then n mod 16 else if Nat.ltb n 32 then (1 + 5 * n) mod 16
  else if Nat.ltb n 48 then (5 + 3 * n) mod 16 else (7 * n) mod 16.
Definition rotation (n : nat) : N :=
  nth (n mod 4) (if Nat.ltb n 16 then [7; 12; 17; 22] else if Nat.ltb n 32 then [5; 9; 14; 20]
                 else if Nat.ltb n 48 then [4; 11; 16; 23] else [6; 10; 15; 21]) 0.
Definition operation (X : list N) (s : list N) (n : nat) : list N :=
  match s with
  | [a; b; c; d] =>
      [d; addw 32 b (rotl 32 (rotation n) (sumw 32 [a; fn n b c d; nth (word_index n) X 0; nth n T 0])); b; c]
  | _ => s
  end.
Definition md5_compress (s block : list N) : list N :=
  zip_add 32 s (fold_left (operation (map le_value (pieces 4 block))) (seq 0 64) s).
(** 3.3 *)
Definition md5_IV : list N := [0x67452301; 0xefcdab89; 0x98badcfe; 0x10325476].
(** 3.1, 3.2, 3.5: padding with the low 64 bits of the bit length, little-endian output *)
Definition MD5 (m : list N) : list N :=
  flat_map (le_bytes 4) (iterate 64 8 (le_bytes 8) md5_compress md5_IV m).

(** Known answers (A.5), run at compile time *)
Check (@eq_refl _ (be_bytes 16 0xd41d8cd98f00b204e9800998ecf8427e) <: MD5 [] = be_bytes 16 0xd41d8cd98f00b204e9800998ecf8427e).
Check (@eq_refl _ (be_bytes 16 0x900150983cd24fb0d6963f7d28e17f72) <: MD5 (chars "abc") = be_bytes 16 0x900150983cd24fb0d6963f7d28e17f72).
Check (@eq_refl _ (be_bytes 16 0xd174ab98d277d9f5a5611c2c9f419d9f) <: MD5 (chars "ABCDEFGHIJKLMNOPQRSTUVWXYZabcdefghijklmnopqrstuvwxyz0123456789") = be_bytes 16 0xd174ab98d277d9f5a5611c2c9f419d9f).
